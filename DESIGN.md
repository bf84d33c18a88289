# Formal model of simpeg: design

Source: `/repo` (simpeg/simpeg at the pinned commit), read as text only.
Prover: Coq 8.16.1. Everything lives in `rocq/theories`, logical name `Verif`.

## Method

* The model is a set of shallow Gallina functions that mirror the Python branch
  by branch. Each definition carries a comment `(* file:lines *)` and says where
  it simplifies. Exceptions are values (`result`, `Err kind`).
* Numbers: floating-point arithmetic is modelled by the exact reals `R` of the
  standard library, except where special values matter (validators), where a
  float is modelled as `NaN | -inf | real | +inf`. Rounding is *not* modelled.
* Arrays are lists. Where Python aliasing matters (in-place `+=`, caches,
  identity tests) the model has an explicit heap or object identities.
* Linear operators and user supplied functions (objective functions, forward
  simulations, residuals) are universally quantified functions; whatever is
  assumed about them is a visible hypothesis of the theorem.
* Property theorems sit in `P_*.v` files which contain only theorem statements,
  `exact lemma`, `Print Assumptions` and the non-vacuity `Example`s.
* Independent specifications sit in the small `Spec*.v` files (or are stated
  directly with standard-library notions such as `derivable_pt_lim`, `nth_error`,
  `NoDup`).
* If the faithful model violates a property, the theorem is `..._refuted` with a
  concrete witness; a conditional positive theorem accompanies it when useful.

## Plan per property

| id | model | proof |
|----|-------|-------|
| C01 | `Survey.v`: sources as lists of receivers (identity + nD), slice tables | induction on source/receiver lists |
| C02 | `DataM.v`: dobs list, slice read/write | refinement to an association map, induction over writes |
| C03 | `Survey.v`: state with the `_vnD` cache | refutation by a 2-step history; positive theorem if no reassignment after a read |
| C04 | `DataM.v`: uncertainty setters as state machine | invariant over setter histories |
| C05 | `Misfit.v`: weights, residual, Jtvec | real analysis (derivative of a finite sum of squares) |
| C06 | `Misfit.v`: `_W` cache | refutation + positive theorem for histories without later change |
| C07 | `ObjFun.v`: expression trees and Combo objects | structural induction |
| C08 | `ObjFun.v`: stacked W | induction on terms |
| C09, C10, C12 | `Optim.v`: line search and outer loop with fuel = iteration limits | induction on fuel, invariants |
| C11 | `Optim.v`: projection and sets | pointwise case analysis, invariant over runs |
| C13 | `Bfgs.v`: `bfgsrec` over an inner-product space of lists | induction on recursion depth |
| C14 | `Gncg.v` | loop invariants |
| C15 | `NewtonRootM.v` | loop invariant |
| C16-C19 | `PropsM.v`: attribute state machines, nested modelers tree | invariants by induction over histories |
| C20-C24 | `MapsM.v`, `MapsIdx.v`, `PropMaps.v`, heap model for SumMap | induction over chains, derivative lemmas |
| C25, C26 | `Validators.v` | case analysis |
| C27, C28 | `FieldsM.v` | refinement to a map |
| C29-C32 | `Directives.v`, `Irls.v`, `SensW.v` | induction over iterations |
| C33, C34 | `InvProb.v` with object identities | invariant over histories / refutation |
| C35, C36 | `Meta.v`, `Multi.v` (queues, workers, failures) | induction, simulation relation over schedules |
| C37 | `Waveforms.v` | real analysis |
| C38 | `Coords.v` | real analysis |
| C39 | `ModelBuilder.v` | case analysis / refutation |
| C40-C42 | `Sparse.v`, `Reg.v` | real analysis, history invariants |
| C43 | `Probing.v` | sums over congruence classes |
| C44, C45 | `LinSim.v`, `TimeMesh.v` | linear algebra on lists, history invariant |
| C46, C47 | `Survey.v` receivers | refutation + conditional theorem |
| C48, C49 | `DistW.v`, `Mixing.v` | real inequalities |
| C50 | `CounterM.v` | trace semantics |
| C51, C54 | `Coords.v`, `Sparse.v`: spherical maps, angle differences | real analysis |
| C52 | `PowerIt.v` | monotonicity of Rayleigh quotients |
| C53 | `Sparse.v` norm setters | state machine |
| C55 | `Scaling.v` | linear algebra, history |
| C56 | `EffMed.v` | fixed points, invariants of the iteration |
| C57 | `LinSim.v` sinusoid kernels | history invariant |
| C58 | `Joint.v`: joint terms as expressions over sparse matrices (`mx`) | derivative lemmas, structural induction |
| C59 | `Param.v` | derivative lemmas; refutations |
| C60 | `Ray.v` | induction over grid crossings |
| C61 | `Mass.v`: caches of inner products | invariant over histories |
| C62 | `Empir.v` | derivative lemmas |
| C63 | `Richards.v`, `Gncg.v` (root finder) | induction over time steps, block substitution |
| C64, C65 | `Dc.v`; `SolveDeriv.v` (derivative of the solution of a linear system) | real analysis, invariant over histories, superposition and reciprocity |
| C66 | `Fdem.v`; `Cplx.v` (complex vectors as pairs) | real analysis, invariant over histories, elimination between formulations |
| C67 | `Tdem.v` | real analysis along paths of models, induction over time steps forwards (fields, Jvec) and backwards (adjoint), elimination between formulations |
| C68 | `Pf.v` | closed forms of geoana/choclo as arbitrary functions; induction over receivers, locations, components, cells (filling = list in data order), mixed differences telescoping over a tensor mesh |
| C69 | `PfSim.v` | simulation object as a state (stored matrix, file, unit vectors, weighted diagonal); invariant over histories: every cache equals the value from scratch; kernels and physical property map arbitrary |
| C70 | `VecReg.v` | weights, W, value, deriv, deriv2 of the three vector terms; values as sums over cells/faces of an independent per-cell formula; gradients by `vderiv`; cross product as a linear map with adjoint |
| C71 | `PfIO.v` | The readers and writers of UBC gravity, gradient and magnetic files over a file of lines and tokens, an abstract rounding for printing, and a result that may also be an endless loop. Round trips by induction over the rows and the header string; rewriting; blank lines; cut files. Findings: zero data become nan, other components become gz/tmi, cut files hang, writing gradients changes the survey. |
| C72 | `Abmn.v` | The generator of surveys from electrode tables and the tables a survey reports. The order is shown to be a permutation by counting; rows of a source are the rows of its pair. Finding: a relative tolerance turns dipoles at large coordinates into poles. |
| C73 | `XyzIO.v` | The reader and writer of column files over headers and rows. Round trip by following every column; safety theorem for any file. Findings: columns taken by the wrong number, shifted columns for line surveys, one-row files. |
| C74 | `Lifecyc.v` | Objects by creation index (directives with their cached reg/dmisfit slots, directive lists, problems, inversions, optimizer callbacks, reference models); programs are lists of constructor calls and runs with an arbitrary schedule of pass outcomes. Invariant by induction over programs; refutations by short programs. |
| C75 | `Cx.v`, `Mt1d.v` | Complex scalars as pairs of reals with a field structure; the recursion and its reverse sweep as recursions over the layers; data, Jacobian rows, caches. Maxwell's equations as differential equations for complex curves, solved by the two exponential waves; impedances stay in the third quadrant (invariant), so no division by zero; reverse sweep shown to be the derivative by induction over the layers. |
| C76 | `Geom.v` (numbers with infinities and nan; sources and receivers with identities; six separations, geometric factor, apparent resistivity, dictionaries of factors, receiver eval/evalDeriv, pseudo-locations) | separations and factors against a list of spreads with `None` for infinity; homogeneous ground by superposition of point electrodes (with images below a surface); similarity, reciprocity, polarity, pole limit; refuted: current other than one, buried electrodes, moved electrodes, stabiliser, pole pseudo-depth, slopes, "horizontal" distances |
| C77 | `Dc1d.v` (the kernel and its reverse sweep per wavenumber; filter points; the coefficient matrix with its guard; model setter with allclose, stored Jacobian, changes of survey and filter) | `SpecDc1d.v`: Ohm's law and current conservation in each layer as differential equations with continuity and boundedness. ODE uniqueness by integrating factors; derivative of the recursion by induction with the sweep's multiplier generalised; the digital filter's row sums and the spline's reproduction of constants give half-space voltages; invariant over call histories. Refuted: surplus thicknesses are ignored; several apparent resistivities per receiver raise or come out wrong; multipoles are refused; no sensitivities without maps; survey changes go unnoticed, and filter changes by the stored Jacobian |
| C78 | `Ip.v` | BaseIPSimulation over the DC simulations of `Dc.v`: background fields, scaling of apparent chargeabilities, prediction, products, stored results. | Seigel's definition as a derivative along lowered conductivities, uniform ground, has_jacobian, adjoint, history by an invariant; counterexamples for nonlinear mappings, kept fields, changed sigma, weights and miniaturized surveys. Two-dimensional simulations are not modelled. |
| C79 | `Lines2d.v` | convert_survey_3d_to_2d_lines over the surveys of `Abmn.v`: unique pairs in lexicographic order, profile, matching of data by position along the profile, poles and dipoles. | Orders and memberships by induction over the insertion of rows; the profile of a line is shown to be unique and the result is related to it; distances by Cauchy-Schwarz; counterexamples for single sources, boreholes, arrays across the line and the origin. |
| C80 | `JointDir.v` | the four directives as functions on a state with a heap of lists of trade-off parameters; values of misfits and regularizations are the input of each iteration | invariant of an iteration over the directives in any order, then induction over iterations; counterexamples for saved lists, zero multipliers, changed targets |
| C81 | `DcUbc.v` | files as lines of tokens, printing as a rounding, the readers' loop as a state machine with its flags | written lines as blocks; invariant of reading a block; induction over sources; exact description of what is read gives round trips and counterexamples |
| C82 | `DcXyz.v` | the checks of `read_dcip_xyz`/`write_dcip_xyz` (header lookup, survey from the tables of `Abmn.v`, negative uncertainties, missing uncertainties) and the simple format of `read_dcip2d_ubc`/`write_dcip2d_ubc`. Files are headers and rows of numbers; printing is a rounding. Columns and round trip of XYZ files are C73 | the reader is computed for files whose columns come in its order, and reduced to the acceptance theorem of C72; the simple format as appended columns, pairing from the order theorem of C72. **Findings**: data in the first column of a file are replaced by A's x coordinates (`C82_data_first_refuted`, for every such file); one-row simple files raise IndexError; writing without uncertainties raises TypeError even when they are not asked for |
| C83 | `Drape.v` | `get_discrete_topography`, `_closest_grid_indices`, `shift_to_discrete_topography` on tensor meshes, the electrode tables of a survey with their cache, and `drape_electrodes_on_topography`. Tree meshes and `point2index` outside the mesh are not modelled; ties of the search tree go to the first column | highest active cell from `argmax` over increasing centres; in uniform cells the nearest centre is that of the containing cell (strict inequality of squared distances); the loop over sources and receivers by induction with offsets into the tables. **Findings**: with cells of different sizes the nearest column is not the containing one (`C83_neighbour_refuted`), in 2D shifting twice differs; tables read earlier make later moves of sources ineffective (`C83_stale_refuted`); multipole sources keep one electrode; a single point, integer active cells and one-column meshes raise |
| C84 | `Synth.v` | `make_synthetic_data`, the `Data`/`SyntheticData` constructors, all setters and item assignment over a heap of arrays (identity, dtype, contents), base-class `dpred`. Random numbers are an arbitrary sequence; the survey is fixed | refinement: while no array is handed to two objects and synthetic data have noise, every program acts on the objects by value (the container of C04); invariant that held arrays are pairwise distinct. Noise and reported deviation computed datum by datum. **Findings**: without noise data and clean data are one array, so `data[src, rx] = v` overwrites the clean data; the reported deviation uses the noisy datum; `add_noise=1` adds nothing; complex data get noise on the real part only; base-class predictions of complex receivers lose imaginary parts |
| C85 | `NsemRx.v` | `Impedance`, `Tipper`, `Admittance`, `ApparentConductivity`: `eval`, `evalDeriv` and its adjoint, in 1D, 2D and 3D, over arbitrary projection matrices and exact complex fields. Derivatives are with respect to the e and h fields: `f._eDeriv`/`f._hDeriv` are those of C66. One adjoint vector at a time (the reshapes for matrices of vectors are not modelled) | transfer functions solve the defining system and are its only solution (field identities); phase characterised by its polar form; derivative along any curve; adjoint identity summed over locations. **Findings**: the 3D admittance uses a row of E^-1 where it needs a column, so it is wrong unless Ex of the second polarisation equals Ey of the first; a 1D impedance ignores the magnetic locations; a diagonal impedance on a 1D/2D mesh has a derivative of the wrong length and an adjoint the simulation cannot unpack |
| C86 | `Precond.v` | The two calls of UpdatePreconditioner with their different treatment of Zero objects, Update_Wj, beta schedules, weight updates and the optimizer's loop over arbitrary models; the Hessian as the sum of multiplied terms; simulations as functions giving sensitivities | Entries of both diagonals by induction over the terms; freshness by induction over the iterations; failures by computation over arbitrary histories |
| C87 | `Dc2d.v` | Both formulations with their three boundary conditions, stores of boundary matrices and products by wavenumber, factored matrices, fields by wavenumber, the loops of dpred, Jvec, Jtvec and getJ, bc_type, trapezoidal weights; operators and solver as arguments | Derivative of a solution, adjointness block by block, invariant over histories of calls; counterexamples for the stored boundary product, the changed Neumann matrix and assigned bc_type |
| C88 | `SelfPot.v` | Right-hand side, its derivatives, deletions on model updates, the inherited fields, dpred, Jvec, Jtvec, getJ and getJtJdiag on a state with factored matrix and stored J; both mappings on meshes given by cells, faces and their neighbours; the DC matrix of `Dc.v` | Linearity of the solve, adjointness receiver by receiver, invariant over histories; summation by parts over faces; counterexamples for stored J, Neumann conditions, cells of different volume and the sign of the head map |
| C89 | `Sip.v` | Decay of a cell with its partial derivatives, pulses and stacking; unique times; fields, dpred, Jvec, Jtvec, getJ and getJtJdiag on a state with stored chargeabilities, predictions and J; a matrix per receiver for the response to chargeability; order of Data objects; projections of apparent chargeability | Rearranging sums; chain rule for exp and ln; adjointness by induction over receivers and times; invariant over histories; counterexamples |
| C90 | `MultiTarget.v` | MultiTargetMisfits as a state with cached targets and flags, its setters, initialize and endIter on measured misfits, smallness and mixture distance; PGI_BetaAlphaSchedule as a state (mode, previous misfits, beta, alpha) | Refinement of cached targets to the last wishes, an invariant over histories; induction over runs; median bounds; counterexamples |
| C91 | `Vrm.v` | Characteristic decays of StepOff, SquarePulse and ArbitraryPiecewise with their checks, the window of positive currents with Python's slices, log-uniform decays (the exponential integral is any function with its derivative). ArbitraryDiscrete, which resamples, and the three-dimensional simulation are not modelled | Antiderivatives; telescoping sums by induction over samples; derivatives; list lemmas for the window |
| C92 | `Tile.v` | TileMap: rows of volumes, restriction to active cells, local active cells, scaling and one block per component; which local cell holds a centre comes from discretize and is an argument | Row lemmas by induction over cells; blocks of concatenated vectors; sums exchanged |
| C93 | `Convolve.v` | convolve_with_waveform: the loop over nodes with clamped delays; the quadrature is any function, assumed exact between nodes in the theorems | Telescoping over nodes by primitives; the derivative of the trapezoid is that of `Waveforms.v` |
| C94 | `PgiMref.v` | PGI_AddMrefInSmooth with its search for smoothness terms in a PGI and in a sum, the setters of PGI and WeightedLeastSquares, and the reference set by PGI_UpdateParameters; mixtures are arguments, one PGI per sum | Characterisation of every term after any history by induction |

## Trusted base

* Coq's kernel (8.16.1). No axioms of our own, no plugins, no switched-off checks.
* The standard-library axioms that `Print Assumptions` lists below each theorem:
  `ClassicalDedekindReals.sig_forall_dec`, `ClassicalDedekindReals.sig_not_dec`,
  `FunctionalExtensionality.functional_extensionality_dep` and, for some theorems,
  `Classical_Prop.classic`. `ASSUMPTIONS.md` groups all theorems by the axioms they rest on.
* The reading of the Python source recorded in the comment on each definition.
* The documented meaning of numpy, scipy, discretize and pymatsolver, which enter
  as functions, matrices or visible hypotheses (for instance that a solver solves).

## What is modelled

| part of `/repo/simpeg` | properties |
|---|---|
| `survey.py`, `data.py`, `fields.py`, `simulation.py` (base, linear, time stepping, synthetic data) | C01-C04, C27, C28, C44-C47, C57, C84 |
| `data_misfit.py`, `objective_function.py`, `inverse_problem.py`, `inversion.py` | C05-C08, C33, C34, C74, C86 |
| `optimization.py`: Minimize, line search, stopping, BFGS, projected Gauss-Newton CG, NewtonRoot | C09-C15 |
| `props.py`, `base/pde_simulation.py` (mass matrices and caches) | C16-C19, C61 |
| `maps/`: composition, sums, projections, injections, surjections, property, parametric, spherical, effective-medium and tile maps | C20-C24, C49, C51, C56, C59, C92 |
| `regularization/`: base, sparse, vector, cross-gradient, correspondence, joint total variation | C40-C42, C53, C54, C58, C70 |
| `directives/`: beta schedules and estimates, targets, IRLS, sensitivity weights, preconditioner, joint and multi-target directives, PGI schedule and reference models, directive lists | C29-C32, C55, C74, C80, C86, C90, C94 |
| `meta/simulation.py`, `meta/multiprocessing.py` | C35, C36 |
| `utils/`: validators, coordinates, probing, eigenvalue estimates, model builders, distance weights, counters, topography, potential-field and DC/IP file formats | C25, C26, C38, C39, C43, C48, C50, C52, C71, C73, C81-C83 |
| `electromagnetics/static/`: resistivity in 1D, 2.5D and 3D, survey generation and splitting, geometric factors, induced polarization, self-potential, spectral induced polarization | C64, C65, C72, C76-C79, C87-C89 |
| `electromagnetics/frequency_domain`, `time_domain`: 3D E, B, H, J formulations, waveforms and convolutions with them | C37, C66, C67, C93 |
| `electromagnetics/natural_source`: layered simulation, receivers | C75, C85 |
| `electromagnetics/viscous_remanent_magnetization/waveforms.py` | C91 |
| `potential_fields/`: integral gravity and magnetics | C68, C69 |
| `flow/richards`, `seismic/straight_ray_tomography` | C60, C62, C63 |

The row of each property above and the comments in its model file say which methods
and branches are covered.

## What is not modelled

* Floating-point rounding, overflow and the accuracy of quadrature and iterative
  solvers; numpy, scipy, discretize, pymatsolver, dask and scikit-learn internals.
* `dask/`, `meta/dask_sim.py`: task graphs and chunks.
* `regularization/pgi.py`, `utils/pgi_utils.py`, the PGI directives other than the
  schedule of C90 and the reference models of C94: Gaussian mixtures and their fitting.
* `potential_fields`: differential simulations and equivalent source layers.
* `electromagnetics`: layered frequency- and time-domain simulations, 2D and 3D
  natural-source simulations and their primary fields, the VRM simulation, its
  sources and receivers, `ArbitraryDiscrete.getCharDecay` and `Custom`, analytic solutions, line-current discretization.
* `maps`: `Mesh2Mesh`, `ComplexMap`, `PolynomialPetroClusterMap`.
* `optimization.py`: printers, `Remember`, and the conjugate-gradient and direct
  solves behind `GaussNewton`, `InexactGaussNewton` and `SteepestDescent`; the
  minimiser is modelled for any search direction.
* `meta/multiprocessing.py`: `MultiprocessingRepeatedSimulation`.
* `regularization/regularization_mesh.py`: its operators enter as matrices.
* `SphericalUnitsWeights`, the deprecated `Update_IRLS`, `PairedBetaEstimate_ByEig`,
  and directives that only print, plot or save; plotting, logging, downloads, drivers,
  EDI, GOCAD and octree UBC files, deprecation helpers.

## How the seeded edits are judged

Each line of `seeded/LOG.jsonl` is one edit of a model file in a scratch copy. Proofs
that no longer compile are replaced there by `Admitted`, and `theorems_failed` lists every
property theorem that then rests on such a lemma. The list is therefore an upper bound:
a theorem in it may still be true of the edited program, with only its old proof broken.
That an edit makes a statement false is not itself proved. An edit with an empty list
is one no theorem notices; for these the theorem was tightened (`theorems_tightened`).
Edits that did not typecheck were left out.
