# Formal model of tranquilo - design

Target: `/repo/src/tranquilo` (Python/NumPy). Tool: Coq 8.16.1 with its standard
library; no other library is needed by the theorems.

## 1. Approach

* One shallow Gallina model per Python module (`theories/*Model.v`, no proofs inside),
  function by function and branch by branch, each definition citing the file and lines it
  mirrors. Exceptions are values (`res A := Ok a | Err e`); mutable objects are passed and
  returned, *including the partially mutated object when an exception is raised* (matters for
  C05/C06).
* Numbers.
  - Stored points and geometry: `list R` (`vec`); linear-algebra heavy parts (models, fitting,
    subsolvers): vectors as functions of their index with an explicit dimension (`FVec.v`).
    Floating-point rounding is modelled in `FloatModel.v` and `FloatAcceptModel.v` only.
  - Decision logic (acceptance, radius, convergence, clipping of infinities): `xr`, the
    reals extended by `PInf`, `NInf`, `NaN` with IEEE-754 comparison/arithmetic rules (rounding
    and overflow not modelled, signed zeros identified).
  - Indices, counters: `nat`/`Z`. Python values of options: `pyval`.
* Division by zero, roots of negative numbers, unbound variables, exhausted iterators etc. are
  explicit error results of the model wherever the code can reach them; a theorem that a solver
  "never raises" is about these.
* External or random components are universally quantified function parameters: user
  criterion, batch evaluator results, random generator, scipy optimizers (L-BFGS-B, SLSQP),
  norm.ppf, numpy least squares and pinv, `rng.multivariate_normal`, the quasi-Monte-Carlo
  generators of scipy, its trust-constr minimizer. (The Cholesky factorization and triangular solves of
  gqtpar are modelled by the textbook algorithms.) A theorem that needs something
  from them says so as a hypothesis.
* Properties are stated with notions that do not mention the model's helpers (call logs,
  quantified inequalities, sums), then proved of the model. `Prop_*.v` files contain the
  theorems with their proofs; `Example`s (`Cnn_instance` and similar) next to them show
  non-trivial instances of the hypotheses.
* Loops: either structural (bounded by an option) or fuelled; out-of-fuel is an error value
  `OutOfFuel` that is excluded by a theorem, never by a hypothesis.
* The main loop carries a ghost log of events (points found, samples drawn, fits, evaluations),
  so that properties of what happens *during* an iteration can be stated.
* Properties the code violates: a theorem `..._refuted` proves a concrete counterexample on the
  model (or that the failure always occurs), and `..._partial` proves what is true.

## 2. Trusted base

1. Coq's kernel (checked again by coqchk in the gate).
2. Axioms: only those of Coq's standard library listed per theorem in section 5. No axiom,
   parameter, admitted goal or disabled kernel check of our own; section variables are all
   discharged.
3. The correspondence model <-> Python, which is by reading (comments cite the lines), and
   the number semantics above.
4. The behaviour of Python/NumPy built in to the models: broadcasting where used, argmax/argmin
   return the first extremum, `np.repeat`, dict order, `np.nan_to_num`, `np.cov`, comparison
   with NaN, `functools.partial` and call binding.

## 3. Files (theories/)

| files | contents |
|---|---|
| `Base.v`, `XR.v`, `Vec.v`, `FVec.v` | errors, list lemmas, extended reals, vectors and matrices |
| `HistoryModel.v`, `HistorySpec.v`, `HistoryProofs.v`, `Prop_History.v` | history.py; abstract call log; C01-C09, C99 |
| `WrapModel.v`, `WrapProofs.v`, `Prop_Wrap.v` | wrap_criterion.py; C10-C13 |
| `VolumeModel.v`, `RegionModel.v`, `Prop_Volume.v`, `Prop_Region.v` | volume.py, bounds.py, region.py; C14-C19 |
| `AdjustModel.v`, `Prop_Adjust.v` | adjust_radius.py, adjust_n_evals.py, acceptance_sample_size.py, next_multiple, default radius; C20-C23, C32-C35 |
| `AcceptModel.v`, `LogSpec.v`, `LogProofs.v`, `AcceptProofs.v`, `Prop_Accept.v` | acceptance_decision.py over the history model; C24-C31 |
| `ModelsModel.v`, `Prop_Models.v` | models.py, aggregate_models.py; C36-C41 |
| `Prop_LineSearch.v` | C167-C170: the line search decider with special values |
| `Prop_Reject.v` | C171-C173: rejected and accepted steps in runs |
| `FitModel.v`, `Prop_Fit.v`, `LstsqProofs.v`, `Prop_Frobenius.v` | fit_models.py, handle_infinity.py, polynomial features of poisedness.py; C42-C47, C100, C165, C166 (`LstsqProofs.v` shows that solvers as assumed for np.linalg.lstsq and scipy.linalg.qr exist) |
| `FilterModel.v`, `Prop_Filter.v`, `Prop_Cluster.v` | filter_points.py, clustering.py; C48-C52, C101 |
| `SubproblemModel.v`, `Prop_Subproblem.v` | solve_subproblem.py, fallback_subsolvers.py; C53-C56, C71, C102 |
| `CgModel.v`, `Prop_Cg.v` | conjugate gradient and Steihaug-Toint, both versions; C57-C59, C103 |
| `TrsboxModel.v`, `TrsboxProofs.v`, `Prop_Trsbox.v` | trsbox, numpy version; C60, C104, C105 |
| `TrsboxFastModel.v`, `Prop_TrsboxFast.v` | trsbox, numba version (unbound names, aliasing of the gradient); C138, C139 |
| `MainProgress2.v` | a deterministic run with arbitrary components that are able to answer returns a result |
| `BuiltinModel.v`, `Prop_Builtin.v`, `Prop_Builtin2.v` | the built-in components plugged into the main loop (fallback_multistart left out); C140-C142 |
| `VisualizeModel.v`, `Prop_Visualize.v`, `Prop_Visualize2.v` | visualize.py without the drawing itself; C143-C150 |
| `UtilityModel.v`, `Prop_Utility.v` | utilities.py, weighting.py; C151-C153 |
| `FloatModel.v`, `FloatProofs.v`, `Prop_Float.v` | region.py, adjust_radius.py, hull projection, next_multiple in binary64 arithmetic (Flocq); C154-C160 |
| `FloatAcceptModel.v`, `Prop_FloatAccept.v` | acceptance_decision.py (values, rho, decision) in binary64 arithmetic; C174-C176 |
| `Prop_Exact.v` | C177-C178: criteria that the models can represent |
| `Prop_NoisyRun.v` | C179: noisy runs with the built-in components succeed |
| `Prop_NoisyCount.v` | C180-C181: values that are not finite, numbers of evaluations in noisy runs; examples for C179-C181 |
| `Prop_Budget.v` | C182: runs with weaker stopping rules continue runs with stronger ones |
| `Prop_Shift.v` | regions, histories and acceptance steps of a translated problem (lemmas for C183) |
| `Prop_ShiftRun.v` | phases and the loop of a run on a translated problem (lemmas for C183) |
| `Prop_ShiftBuiltin.v` | C183–C185: translated runs, translated built-in components, padding rows |
| `BntrModel.v`, `Prop_Bntr.v` | bntr.py and bntr_fast.py; C61-C66, C106-C108 |
| `GqtparModel.v`, `GqtparProofs.v`, `Prop_Gqtpar.v`, `Prop_Gqtpar2.v` | gqtpar.py / gqtpar_fast.py; C67-C70, C109-C114, C56 witness |
| `GqtparFastModel.v`, `Prop_GqtparFast.v` | gqtpar_fast.py helper by helper with np.roots, _steihaug_toint_fast.py; C186–C188 |
| `Prop_Gradient.v` | C189 |
| `Prop_Convex.v` | C190 |
| `Prop_Rate.v` | C191 |
| `Prop_Units.v` | C192 |
| `Prop_CgUnits.v` | C193, C194 |
| `Prop_Complexity.v` | C195, C196 |
| `Prop_NearOptimal.v` | C197, C198 |
| `Prop_Promise.v` | C199 |
| `FallbackModel.v` | `subsolvers/fallback_subsolvers.py` 138-199 |
| `Prop_Fallback.v` | C200, C201 |
| `PlotModel.v` | the coordinates drawn by `visualize.py` 119-371, 423-434, 460-499 |
| `Prop_Plot.v` | C202-C204 |
| `Prop_TrsboxDecrease.v` | C205 |
| `Prop_SteihaugDecrease.v` | C206 |
| `Prop_Rotate.v` | C207 |
| `Prop_SampleOrder.v` | C208, C209, C210 |
| `Prop_Average.v` | C211 |
| `Prop_Residualize.v` | C212 |
| `Prop_Affine.v` | C213 |
| `Prop_VarianceShift.v` | C214 |
| `Prop_Limits.v` | C215 |
| `Prop_Initial.v` | C216 |
| `LinearModel.v`, `Prop_Linear.v` | linear_subsolvers.py; C72, C116 |
| `SampleModel.v`, `Prop_Sample.v` | sample_points.py; C73-C75, C117 |
| `VarianceModel.v`, `Prop_Variance.v` | estimate_variance.py; C76, C77, C118 |
| `MainModel.v`, `MainProofs.v`, `MainPhases.v`, `MainLoop.v`, `MainProgress.v`, `Prop_Main.v` .. `Prop_Main4.v`, `Prop_Step.v`, `Prop_Search.v` | tranquilo.py; C78-C94, C98, C115, C161-C164 |
| `OptionsModel.v`, `Prop_Options.v` | options.py; C95, C119 |
| `ComponentModel.v`, `Prop_Component.v` | get_component.py and the functions building components; C96, C120, C121 |
| `ProcessModel.v`, `Prop_Process.v` | process_arguments.py; C97, C122, C123 |
| `NoiseModel.v`, `Prop_Noise.v` | rho_noise.py; C124-C127 |
| `PoisednessModel.v`, `Prop_Poised.v`, `Prop_Poised2.v` | poisedness.py; C128-C131 |
| `GeometryModel.v`, `Prop_Geometry.v` | geometry.py, exploration_sample.py; C132-C134 |
| `DetProofs.v`, `Prop_Det.v` | theory of the modelled determinant (alternating, unique, multiplicative, positive semi-definite matrices); C128, C131, C132, C135 |
| `Prop_Bntr2.v` | C136, C137 |

## 4. Properties

`M` = what is modelled, `P` = how it is proved. (violated) = the code violates the statement;
there is a `_refuted` theorem plus, where something remains, a restricted `_partial` theorem.

| id | model and proof |
|---|---|
| C01-C04 | M: History as record of NaN-padded buffers + index map, all operations returning the new object. P: refinement of an abstract call log by induction over the call sequence with an invariant (buffer prefix = log). |
| C05 | M: same. P: case analysis; the returned object equals the old one. |
| C06 | (violated) P: witness with index list [0; -1]; partial: non-negative indices. |
| C07 | M: distance filter over stored xs (reals). P: refinement + filter lemmas. |
| C08, C09 | M: dict-based extraction with deduplication. P: alignment for NoDup lists; C09 violated, witness [0;0]. |
| C10, C11 | M: repeat/evaluate/clean/record pipeline; criterion results as arbitrary list from an oracle. P: induction over the request list. |
| C12 | (violated) M: values of mixed shape make the array construction fail. Witness + partial (no failures, or all scalar). |
| C13 | M: extended-real aggregation. (violated for likelihood) P: sums of squares never NaN; witness for likelihood. |
| C14-C18 | M: Region with optional bounds over extended reals. P: real inequalities; C18 violated (one-sided bounds: UnboundLocalError). |
| C19 | M: volume formulas with Gamma(d/2+1) given by its values at half-integers and real powers. P: algebra of powers. |
| C20-C22 | M: adjust_radius over extended reals. P: case analysis; C22 violated. |
| C23 | M: default radius formula. Violated at x = 0; partial for x <> 0. |
| C24-C31 | M: deciders over the history model, sampler and line geometry as parameters. P: case analysis + list lemmas; C30, C31 violated. |
| C32-C33 | M: sample sizes over reals with the quantile sum as parameter. P: field arithmetic. |
| C34, C35 | M: direct. P: counting / integer arithmetic. |
| C36-C40 | M: scalar and vector models as index functions. P: bilinear algebra by induction; C39, C40 violated. |
| C41, C42 | M: feature construction with triu_indices order and Hessian reshape. P: double-sum induction over all dimensions. |
| C43 | M: rescaling with the regression solver as parameter characterised by minimum norm. P: algebra. |
| C44 | M: branching on sizes. P: arithmetic. |
| C45 | (violated for n >= 3) witness; partial n <= 2, and column-major order. |
| C46, C47 | M: column-wise clipping on extended reals; C47 violated for constant columns. |
| C48-C50 | M: dropping loop with argmax/argmin over distances. P: induction on n. |
| C51, C52 | M: greedy clustering loop over a distance matrix. P: loop invariant; C52 violated. |
| C53-C56 | M: template with arbitrary solver result. P: case analysis; C56 violated, the witness runs the modelled gqtpar. |
| C57-C59 | M: CG / Steihaug loops bounded by their iteration limit. P: loop invariants, quadratic formula; C59 violated. |
| C60 | M: the complete trsbox state machine with goto-like exits. P: every exit goes through clipping; no division by zero or root of a negative number. |
| C61-C66 | M: all of bntr and bntr_fast (gradient descent phase, inactive set, inner method, radius updates, convergence checks). An infinite or NaN trust-region radius is an error of the model and nothing is claimed then. P: invariants over the loops; C63 (numpy version), C64, C65 violated. |
| C67-C70 | M: all of gqtpar; dpotrf, the triangular solves and cho_solve are modelled by the textbook algorithms (exact arithmetic), not as parameters. P: real algebra; C70 sufficiency of the optimality conditions for every symmetric matrix. |
| C71 | M: post-processing of fallback solvers with arbitrary box-feasible inner result. P: norms. |
| C72 | (violated) M: shared iterator of the loop as list state. Three witnesses (StopIteration, outside the bounds, at the bound); partial: ball and descent always, optimality when the bounds are hit in order. |
| C73-C75 | M: projection to the hull, clipping, selection of the better sample, pair slice; generator and optimizer are parameters. P: norms, index arithmetic. C74 violated for optimizers returning a zero row, so the optimal hull sampler part of C73 is partial (`C73_optimal_hull_refuted`). |
| C76-C77 | M: selection and weights over the history. C77 violated: NaN for points with one evaluation. |
| C78-C94 | M: main loop over the history model with all components as arbitrary parameters. P: invariants over executions; C87, C88, C91, C92, C93 violated. |
| C95 | M: bundles as association lists, `pyval` with Python's conversion rules; conversions of strings/objects to numbers are parameters. P: list lemmas. |
| C96 | M: Python's call protocol, `functools.partial`, the wrapper. P: lookup lemmas. Functions with `*args`, `**kwargs`, positional-only parameters are not modelled. |
| C97 | M: all of process_arguments in order. Violated: a NaN search radius factor is accepted. |
| C98 | (violated) P: closed form of the criterion. |
| C99 | (violated) M: as C01. Wrong-length vectors are broadcast when they have length one. |
| C100 | M: ridge normal equations via parameter solver. P: convexity of the penalized error. |
| C101, C102 | M: as C48, C71. P: induction; minimum over a list. |
| C103, C108 | the numba versions agree with the numpy versions in exact arithmetic (C108: whenever bntr_fast returns). |
| C104, C105 | trsbox stays within the ball and does not increase the model. |
| C106, C107 | (violated) radius update after poor agreement; division by zero in bntr_fast. |
| C109-C114 | gqtpar: C109, C110, C111, C113 violated, each with a complete run as witness; C112, C114 hold. |
| C115 | M: as C78. P: every call in the loop succeeds if the components do; hypotheses `good_components`, `total_components`, `good_config` are satisfied by an Example run. |
| C116 | geometry improving step of linear_subsolvers. |
| C117 | soft minimum used by the sampler. |
| C118 | (violated for points with one evaluation) covariance estimate. |
| C119 | (violated) values lost in conversions of options: hardness 0.5 becomes 0, "False" becomes True, None becomes NaN. |
| C120 | (violated) get_component with "warn", without default_options, with nameless callables. |
| C121 | (violated) the cube solvers "fallback_cube" and "fallback_multistart" can never be selected; all other built-ins can, with all their parameters bound. |
| C122 | (violated) n_cores = 0 or negative sample sizes are accepted; the defaults give a `good_config`. |
| C123 | derived default values. |
| C124-C126 | M: simulate_rho_noise with fitter, aggregator, solver and normal generator as parameters. P: index arithmetic of the noise blocks; C126 via C53 (expected improvement = model decrease). |
| C127 | (violated) a flat model makes every rho -inf and the number of evaluations grows without noise. Partial: non-zero expected improvement. |
| C128 | M: features and pseudo-inverse (parameter; used: symmetric and M P M = M at the given matrix). P: sums. |
| C129 | M: constrained minimizer as parameter. P: loop invariant. |
| C130 | (violated for n >= 3, because the square terms are in the wrong order, C45) partial: n <= 2. |
| C131 | P: induction over iterations; the volume is any multilinear alternating form of the rows, in particular the determinant. Volume parts partial: n <= 2. `Prop_Poised2.v` refutes them for n = 3: with an exact optimizer one iteration reports 50 and turns a non-zero determinant into zero, because the maximized polynomials have the coefficients of x0 x2 and x1^2 exchanged (C45). |
| C132 | M: determinant by Laplace expansion. P: the expansion is the unique normalized alternating form; Schur complements for semi-definite matrices. |
| C133 | M: qmc scale and the triangular quantile function; generator as parameter. (violated for the triangular distribution: NaN for degenerate bounds or starting points outside.) |
| C134 | P: instance of C133. |
| C135 | M: as C74. P: as C132. |
| C136 | M: as C61; `pass_state` are the states between the passes of the inner loop. P: invariant of these states (gradient and active set belong to the point), bookkeeping lemmas for the index set, sums over the index set equal sums over all parameters. The start is 0, as in every call of the package; for other starts the first active set is that of the linear terms. |
| C137 | Partial: false. The bounds handed to trsbox are not relative to the current point, so on [0, 1] a point at 1 can never move down again: `C137_minimizer_refuted` (any number of iterations). At the first step, from 0, the step respects the bounds. |
| C138 | M: `_trsbox_fast.py` modelled separately, with a flag for compiled or interpreted execution. P: compiled: the same outcome as the numpy version for every input with lower <= upper (lock-step proof), hence feasible. Interpreted: partial, it agrees or raises UnboundLocalError; a witness (gradient (3,4), radius 5, wide box) raises. |
| C139 | M: the content of the caller's array model_gradient is part of the result. P: proved for every input: while the array is still the caller's, the point is the origin and the alternative step ends before its in-place update. |
| C140 | M: `builtin_components`: fitters, aggregators, filters, samplers, subsolvers with fallbacks, deciders and noise estimators of the other model files put together as `process_arguments` does; random numbers, scipy and LAPACK routines are parameters. P: proved for all choices and all externals of the right shapes. |
| C141 | M: as C140. P: proved with `tranquilo_goes` (MainProgress2): no call of a component fails, induction over the iterations. Hypotheses on externals: random rows nonzero, optimizers keep their box, both succeed; retry_subproblem_with_fallback is on; the decider is classic, naive_noisy or (without bounds) the line search. |
| C142 | M: as C140. P: partial (`_partial`) - proved for sphere solvers in the unit ball, deciders without line search, also noisy. `_refuted`: default least squares options, start (0, 0), radius 1, bounds +-1.05: the run evaluates (1.08, 0), for every least squares solver. |
| C143 | M: as C78. P: invariant of the chain of iterations; stated with the index map of the history. |
| C144 | M: _get_sample_points on the parameter history in the order of evaluation. P: partial - `_partial` for runs as in C143. `_refuted`: two evaluations at the start (default for noisy criteria: more) and the plot shows the point of another index. `C144_frame` for arbitrary index sets. |
| C145 | M: loops over rows and entries. P: characterization as an iff. |
| C146 | M: radius starts at 1e-100 and its square root is taken each round (fuel). P: partial - what is found (`_found`), when the search ends (`_ends`, `_does_not_end`). `_refuted`: the first of two close rows is returned, not the nearest. |
| C147 | M: _process_results. P: partial - points evaluated once; `_refuted`: exceptions for points evaluated twice. |
| C148 | M: argument handling of visualize_tranquilo; names and states of the columns. P: partial - all documented combinations; `_refuted`: iterations given as a dictionary skip the processing. |
| C149 | M: data of the rho, cluster and distance plots. P: full. |
| C150 | M: _clean_legend_duplicates. P: partial - at most once, first trace kept; `_refuted`: a name whose first trace is hidden is not shown at all. |
| C151 | M: get_rng; default_rng is an arbitrary function. P: iff. |
| C152 | M: difflib.get_close_matches with an arbitrary similarity ratio, sorting and truncation. P: full. |
| C153 | M: get_sample_weighter with python's call protocol. P: full. |
| C154 | M: binary64 values as reals that are multiples of suitable powers of two, infinities and NaN; one zero. P: agreement with Flocq's `Bplus`, `Bminus`, `Bmult`, `Bdiv`, `Bsqrt`; excluded: divisors -0. |
| C155 | M: region.py and the template of solve_subproblem.py with rounded operations; the radius of the cube (gamma function) is any float up to 2^1020. P: full. |
| C156 | P: if the cube has positive width in every coordinate; for spheres always. Refuted: at the center 2^40 with the lower bound 2^40 and the default minimal radius the width is zero and the center NaN in unit coordinates. |
| C157 | P: if the radius is at least 2^-52 of the center. Refuted: at 2^40 with the default minimal radius all sampled points equal the center. |
| C158 | M: one row of `_project_onto_unit_hull`; the order of summation is any tree. P: rows with one entry of at least 2^-500 (cubes: a non-zero entry). Refuted: squares that underflow. |
| C159 | P: full, by monotonicity of rounding; the last part by induction. |
| C160 | P: full, by the relative error of the rounded quotient. |
| C161 | P: full, all dimensions; n/2·ln n − ln Γ(n/2+1) is bounded by induction in steps of two, with numerical bounds for π and e. |
| C162 | P: run level; the `_partial` theorem covers spheres, rejected steps and radii that did not shrink; missing is an accepted step from a cube with a shrinking radius, for which the `_refuted` theorem gives a run with default radius options in two dimensions that loses a sampled corner point. |
| C163 | P: full for the classic decider without noise, from the invariants of the loop (`decided`, `det_inv`). |
| C164 | P: full without noise, any decider; with noise the radius also depends on the unrecorded flag that the number of evaluations was increased (C21 covers that case for single calls). |
| C165 | M: the blocks of the feature matrix, the null space basis from the QR factor, both least squares solves; lstsq and qr are parameters with their documented behaviour (existence proved). P: partial - proved if the first n + 1 points lie on no hyperplane (orthogonality, determinants). `_refuted`: the linear terms are computed from the first n + 1 points only; if these are collinear the linear function x_2 is fitted by the zero model. |
| C166 | M: as C165. P: partial - the Hessian's Frobenius norm squared is at most twice the minimum. `_refuted`: coefficients of squares enter the Hessian twice, so minimizing the coefficients does not minimize the Hessian. |
| C167 | M: the line search decider of AcceptModel (acceptance_decision.py:93-239) on recorded histories. P: `accept_line_search_raw` computes the call for arbitrary criterion values up to the minimum of the new values; it fails iff all are NaN, which the wrapper excludes for scalar and least squares criteria. `_refuted`: contributions +inf and -inf. Which exception pandas raises depends on its version. |
| C168 | M: as C167. P: partial - the chosen value is a minimum of the batch, hence finite without -inf; squares never sum to -inf. `_refuted`: a line search point with value -inf. |
| C169 | M: all deciders. P: partial for the others by `decider_form`. `_refuted`: candidate 6, line search point 1, current value 5: accepted with rho = -1, and the radius is halved. |
| C170 | M: `is_on_border`, np.isclose with rtol 0.1 and atol 1e-8. P: partial for spheres. `_refuted`: center 100, bounds 99 and 200, radius 2. |
| C171 | M: whole run (`valid_run`), `accept_simple`, `adjust_radius`, `builtin_solve`. P: partial for min_improvement <= 0 from C163 and C164; `C171_builtin_expectations` from C53 and the finiteness of the maps to the unit region. `_refuted`: min_improvement 100, candidate improves by 27/4: rejected with rho 27/4, same region again. |
| C172 | M: as C171. P: induction over the states; rejected iterations by C171, accepted ones by C164. |
| C173 | M: whole run, all deciders without re-evaluation. P: induction over the states with `C24_accepted_iff_improvement`. |
| C174 | M: `f_accept_simple` in binary64. P: the rounded difference of floats has the sign of the difference (Flocq, `round_plus_eq_0`). `_refuted`: 2^53 - 1/4 is rounded to 2^53. |
| C175 | M: `f_calculate_rho`, `f_adjust_radius`. P: monotonicity of rounding; relative errors of subtraction and division. `_refuted`: 2^-1074 / 4 is rounded to 0. |
| C176 | M: `f_mean` for every order of additions (`sum_tree`). P: induction over the tree, one relative error per level. `_refuted`: ten times 8608178863725569 with numpy's order for ten entries. |
| C177 | M: `builtin_fit`, `builtin_agg` (all fitters, clipping, unit coordinates, aggregators). P: a least squares solution has residual zero if an exact fit exists; prediction and criterion are polynomials that agree on the sample, hence everywhere. `determining` and `polynomial` are stated without reference to the fitter. `C177_ridge_is_not_exact` is the counterexample for ridge (value 1/3 instead of 0). |
| C178 | M: the whole loop with the built-in components. P: `gw_fit` (the data of the last fit are the averaged evaluations of the model points) with C177, `C163_iteration` for rho and acceptance. The region of the iteration must be a proper one (centre within the bounds), which C142 shows is not automatic with gqtpar. |
| C179 | M: the whole loop with `noisy = true`, the built-in components, `builtin_variance`, `builtin_cov`, `builtin_rho_noise` (multivariate_normal is an oracle returning the number of rows asked for). P: the general progress theorem `tranquilo_goes_gen` with the invariant that all evaluations are values of the criterion and the current point was evaluated at least twice; then variance and covariance are finite (C77, C118), the sample sizes are defined and every fit of the simulation succeeds. A noisy run with the classic or line search decider is not covered (candidates are evaluated once there). |
| C180 | M: as C179. P: a value that is not finite makes `np.var` NaN, the weighted sum NaN, and C32 the acceptance step raise; the first link of the chain of iterations. It is the counterpart of the hypothesis `finite_values` of C179. |
| C181 | M: the loop with arbitrary good components. P: invariant along the chain of iterations: evaluations of old points are topped up to n, new points get n, the acceptance step tops the current point up to max_evals and gives the candidate min_evals to max_evals (`sample_sizes_range`), n stays between the bounds of the noise options. |
| C182 | M: the loop with arbitrary components; two configurations related by `stops_later`. P: one iteration does not read the stopping rules (`same_iteration`), the stopping test is monotone (`stop_later`), induction over the fuel of the loop. The order of values needs deciders that do not re-evaluate (C80). |
| C183 | M: two runs of the loop with components related by `translated` (each component does the same with moved arguments). P: a simulation relation between the monadic programs of both runs (`sim`), phase by phase. Partial: false for the stopping rule by the relative change of the parameters (`C183_relative_change_refuted`) and for line searches with bounds, where the test for points on the border is relative to the coordinates (`C183_border_refuted`). |
| C184 | M: `builtin_components` with arbitrary external functions; rng.uniform is assumed to commute with translations and the optimizer of the norm constrained fallback not to read the field shift of the model. P: each component is shown to satisfy `translated`; the models of both runs differ in their field shift only. The exclusions of C183 are hypotheses. |
| C185 | M: the argument `pad` of `tranquilo` is the content of padding rows (NaN in history.py:220 and 229; an arbitrary real number in the model, which this property justifies). P: C183's simulation with the translation by zero; no exclusions. |
| C186 | M: gqtpar_fast.py helper by helper with its plain variables (`GqtparFastModel`); np.roots is the quadratic formula with the order of the two roots as a parameter. P: the passes of both versions are related; the tie of two opposite steps occurs only for a direction orthogonal to the candidate and only matters in the last pass, where both ends have the same model value and norm (`C186_same_value`). The points themselves agree if the lower of two opposite roots is listed first (`C186_same_point_partial`) and may differ otherwise (`C186_same_point_refuted`, default options). Missing: the order in which LAPACK lists the roots. |
| C187 | M: the same loop and helpers as minimize_trust_stcg, the tolerance as written in the numba version. P: case analysis. Division by zero stops the model; there the numba version raises and numpy continues with NaN. |
| C188 | M: `estimate_condition`, `estimate_smallest_singular_value`. P: invariant of the loop (p holds the partial products of U^T w), backward substitution, Cauchy-Schwarz. |
| C189 | M: `is_converged`, `builtin_gnorm`. P: a model that agrees with the criterion everywhere has linear terms equal to the directional derivatives at the effective center times the half side lengths (`C189_gradient_norm`, uniqueness of derivatives), hence radius times gradient norm is at most the tolerance (`C189_small_gradient_partial`). Missing: the gradient itself at the solution; with exact models and exact steps it may be arbitrarily large for any tolerance (`C189_small_gradient_refuted`: (x - B)^2 with a small initial radius). |
| C190 | M: the main loop `tranquilo`, `adjust_radius`, `accept_classic` with abstract components. P: with steps that reach the target when it is within theta times the radius and are otherwise long with rho at least the increase threshold, the radius expands until it covers the level set (`C190_good_steps_reach_the_target`, by C78, C163, C164); exact minimizers of convex criteria over balls are such steps (`C190_convex_criteria_are_minimized`). Steps and models are hypotheses on the components here, met by an instance. |
| C191 | M: the main loop with the built-in components, `gqtpar_solver` for balls. P: the aggregated models of non-residualized fits have symmetric square terms (`aggregated_symm`); an exact model with one minimizer is positive definite and stationary there (`minimizer_definite`), so C109 applies and the expected improvement is at least the share 1 - k_hard of the gap (`gqtpar_step`); with C178 the step is accepted with rho 1 (`C191_iteration`), with C164 the radius does not shrink (`C191_linear_rate`, induction over the iterations). |
| C192 | M: `gqtpar`. P: the factor scales with the root of the number (`chol_scaled`, after a failure without the last diagonal entry, which is not read), the triangular solves, the bounds of the damping factor and both tests scale along; in dimensions 1 and 2 the signs chosen in the estimate of the singular vector do not depend on the scale (`estimate_step`); induction over the passes (`pass_scaled`, `C192_units_partial`). Missing: three and more parameters, where the claim is false: `C192_three_parameters_refuted` computes both runs of a positive definite model with default options. |
| C193 | M: `minimize_trust_cg`. P: each pass commutes with the change of units (`cg_step_scaled`), induction over the passes; the two runs with the default tolerances are computed (`C193_default_tolerances`). |
| C194 | M: `minimize_trust_stcg`, the pseudo-inverse is a parameter with the homogeneity assumed in the theorem. P: as C193 (`st_step_scaled`); in the case with the mixed comparison the search direction and kappa vanish and both runs end with the division by zero (`st_loop_flat`). |
| C195 | M: whole loop, subsolver and fitter are parameters; the accuracy of the model is a hypothesis on the one iteration (`predicted`). P: from C163 (rho and acceptance) and C164 (radius update). |
| C196 | M: as C195. P: induction over the iterations: the floor of the radius, then counting successes (paid by the criterion) and failures (paid by the radius). |
| C197 | M: `gqtpar` pass by pass. P: the model value in terms of the solution of the shifted system (`qval_shifted`), cases of the exits (`C197_fresh_exit`), the damping factor stays non-negative. `_partial`: no pass reuses a factor; `_refuted`: the run of C111. |
| C198 | M: `minimize_trust_cg`. P: the first pass minimizes along the gradient, the other passes descend (C58). |
| C199 | M: the main loop with the built-in components, `gqtpar_solver` for balls; accuracy of the model, size of its linear terms and successful runs of gqtpar are hypotheses on the iterations (`well_modelled`, `clean_run`). P: C197 at the Cauchy point, the expected improvement is the decrease of the model (C177), then C195 and C196. |
| C200 | M: `robust_sphere_solver_norm_constraint`, scipy's SLSQP is an arbitrary function of the criterion, gradient, start, bounds, constraint, its bound and Jacobian and maxiter. P: criterion and constraint along a line are quadratic polynomials with the claimed linear coefficients; a point of the unit ball has entries in [-1, 1]. |
| C201 | M: `robust_sphere_solver_reparametrized`, `robust_sphere_solver_inscribed_cube`, the optimizer finds the best point of its box if it returns (`exact`). P: the ball lies in the cube and the projection leaves it alone; if z is in the ball, z / sqrt n and - z / sqrt n are in the inscribed cube, one of them downhill; the model - x_0^2 / 2 attains the share. |
| C202 | M: coordinates of the traces, lists of pairs; iteration an integer, negative ones count from the end. P: partial - lines and values of markers in full (`_radii`, `_rhos`, `_fekete`, `_cluster_ratios`), markers on the line for nonnegative iterations (`_marker_on_line_partial`); `_marker_on_line_refuted` for all negative iterations. |
| C203 | M: the five traces. P: markers as an iff, exceptions as an iff; `_run` with the index sets of C83 and the order of C143. |
| C204 | M: box of the circle and coordinates of the points, correlations of pandas as real numbers or missing; points are finite. P: partial - two parameters (`_partial`), `_refuted` for one parameter; the heat map by the inequality of Cauchy and Schwarz. |
| C205 | M: as C60. P: partial - `_cauchy_decrease_partial` and `_decrease_bound_partial` above the thresholds of the first step (the pass from the center computed exactly, later passes and the alternative step never lose value); `_refuted` below the threshold: zero for all problems, worse than the descent direction for a concrete one. |
| C206 | M: as C59; `pinv` any function. P: partial - `_partial` for gradients in the range of the Hessian with positive curvature (each pass minimizes along its ray inside the ball, the residual is orthogonal to the last direction), result always returned; `_refuted` for g = (1, 2), H = diag(1, 0), radius 3 and the true pseudo-inverse. |
| C207 | M: as C36 and C43; np.linalg.lstsq (and scipy.linalg.qr) any function returning least squares solutions of minimal norm. P: full for finite values - minimal norm solutions are orthogonal to the null space, so linear in the data; sums over orthonormal columns. The clipping of infinite values before the fit is not part of this property. |
| C208 | M: as C43; np.linalg.lstsq is any function returning least squares solutions of minimal norm. P: full - solutions of minimal norm are unique, the sums of squares agree. The fit of Powell is C209. |
| C209 | M: as C165; exact np.linalg.lstsq and scipy.linalg.qr. P: partial - both orders need first n + 1 points that are not on a hyperplane, since fit_powell recovers the linear part from those only; then the interpolating quadratic with the smallest second order coefficients is unique. Refuted without: (-1, 0), (0, 0), (1, 0), (0, 1) with values x_2 gives zero, with the last two points exchanged x_2. Full for the other numbers of points. |
| C210 | M: as C165; exact np.linalg.lstsq, any scipy.linalg.qr. P: full - the linear part solves the equations of the first n + 1 points, whatever the second order part is. This is also why C209 needs a sample that some quadratic interpolates. |
| C211 | M: as C208; evaluation r belongs to the point `nth r ls 0`, and in the form of the two results of get_model_data (C08). P: full - both sums of squares differ by a constant; equal numbers only scale the sum. The claim of a different fit is a concrete sample (1/3 against 4/11 for the intercept). |
| C212 | M: `fitter_template` with residualize, `fit_ols`, `fit_tranquilo`; exact np.linalg.lstsq. P: full - the template for a spherical region (for cubes see C39) and an old model with square terms only if the new one has them (else the sum drops them, C40); the claims on coefficients are stated for the coefficients of the old model in the coordinates of the region. Which old model a run passes is C93. |
| C213 | M: as C165 and C212; whole models for residualized fits (with values the clipping leaves as they are), else coefficients of one residual in the coordinates of the region. P: partial - in the three cases of the statement. Refuted without: one point at 1 with value 2 is fitted by 1 + x, with value 4 by 2 + 2 x (least squares solution of minimal norm). |
| C214 | M: as C76 and C118; two histories with the same points. P: full for finite values and a point with two evaluations (else the estimate is NaN, C77) - the selection and the weights depend on the numbers of evaluations only. |
| C215 | M: adjust_radius as in C20. P: full. Added because an edited program that ignored max_radius with a finite ratio broke no theorem about the limits (a1 in the log). |
| C216 | M: builtin_init, the aggregators as in C140. P: full for finite values. Added because an edited program with zero intercepts in the initial model broke no theorem (bb3 in the log). |

## 5. Axioms per theorem

As printed by `Print Assumptions` (Coq's standard library only). Abbreviations:
F = `ClassicalDedekindReals.sig_forall_dec`, N = `ClassicalDedekindReals.sig_not_dec`,
E = `FunctionalExtensionality.functional_extensionality_dep`, C = `Classical_Prop.classic`.
(coqchk additionally lists the abstract constants of `Coq.Reals.Rdefinitions`, which are
sealed definitions, and `Coq.ssr.ssrunder`, which no theorem uses.)

<!-- axioms -->

**none ("Closed under the global context")** (23 theorems): `C10_empty_request_no_effect`, `C41_second_order_terms`, `C75_pairs_complete`, `C75_pairs_once`, `C95_none`, `C96_not_callable`, `C117_no_distances`, `C120_nameless_callable_refuted`, `C144_frame`, `C148_iteration`, `C150_legend`, `C150_shown_once`, `C150_every_name_shown_refuted`, `C151_get_rng`, `C151_rejected`, `C153_built_in`, `C153_rejected`, `C153_user`, `C202_radii`, `C202_marker_on_line_partial`, `C202_marker_on_line_refuted`, `C203_markers`, `C203_raises`.

**F** (4 theorems): `C36_sum_defined_iff_quadratic`, `C41_free_params_match_features`, `C42_wrong_number_of_coefficients_raises`, `C125_diagonal`.

**F, E** (117 theorems): `C01_history_xs_round_trip`, `C02_history_evals_round_trip`, `C03_history_counts_and_no_padding`, `C04_history_fvals_aggregate_fvecs`, `C05_rejected_add_evals_no_effect`, `C06_failed_add_evals_atomic_partial`, `C06_failed_add_evals_atomic_refuted`, `C08_model_data_aligned`, `C09_model_data_lengths_partial`, `C09_model_data_lengths_refuted`, `C10_wrapped_criterion_exact`, `C11_scalar_failures_become_inf`, `C12_vector_failure_recorded_refuted`, `C12_vector_failure_recorded_partial`, `C13_fvals_not_nan_partial`, `C13_fvals_not_nan_refuted`, `C16_unit_maps_inverse_cube`, `C16_effective_center_and_radius`, `C20_radius_in_limits`, `C21_radius_direction`, `C21_no_growth_after_bad_step`, `C21_default_rejection_halves`, `C22_radius_positive_with_ratio_partial`, `C22_radius_positive_with_ratio_refuted`, `C23_default_radius_usable_partial`, `C23_default_radius_usable_refuted`, `C27_rho_formula`, `C32_acceptance_sample_sizes_in_limits`, `C32_nan_noise_raises`, `C33_raw_sample_sizes_power`, `C34_n_evals_adjustment`, `C35_next_multiple`, `C36_identity_predicts_entry`, `C36_sum_predicts_sum`, `C36_least_squares_predicts_sum_of_squares`, `C36_information_equality_prediction`, `C37_aggregated_hessian_definiteness`, `C38_moved_scalar_model_predicts_the_same`, `C38_moved_vector_model_predicts_the_same`, `C38_shift_vector_model_modifies_argument`, `C39_vector_radius_partial`, `C39_vector_radius_vector_model_partial`, `C39_vector_radius_refuted`, `C40_sum_of_scalar_models_partial`, `C40_sum_of_vector_models_partial`, `C40_dropped_square_terms_partial`, `C40_sum_of_models_refuted`, `C40_regions_agree`, `C42_fitted_model_predicts_features_times_coefs`, `C42_fitter_template_predicts_features_times_coefs`, `C45_poly_value_partial`, `C45_poly_value_column_major_partial`, `C45_poly_value_refuted`, `C46_clip_relative_finite`, `C47_clip_order_partial`, `C47_penalty_values_partial`, `C47_all_infinite_partial`, `C47_constant_column_refuted`, `C47_clip_order_refuted`, `C51_cluster`, `C53_improvement_nonnegative`, `C55_fallback_policy`, `C63_partition_fast`, `C63_partition_partial`, `C63_partition_refuted`, `C63_versions_same_step`, `C68_gershgorin_bounds`, `C95_unknown_field`, `C95_exact_replacement`, `C95_accepted`, `C95_conversion_error`, `C95_tuple`, `C95_idempotent`, `C95_int_conversion`, `C95_number_conversion`, `C96_call`, `C96_mandatory`, `C96_mandatory_value_error`, `C96_unknown_name`, `C96_constructed`, `C96_invalid_options`, `C96_raise_redundant_option`, `C96_raise_redundant_argument`, `C99_wrong_length_x_rejected_partial`, `C99_wrong_length_x_rejected_refuted`, `C102_multistart_takes_the_best`, `C119_numeric_options_partial`, `C119_hardness_refuted`, `C119_false_string_refuted`, `C119_none_radius_refuted`, `C120_warn_refuted`, `C120_no_default_options_refuted`, `C121_builtins_partial`, `C121_subsolvers_partial`, `C121_cube_solver_refuted`, `C124_one_rho_per_draw`, `C125_only_variances`, `C128_determinant`, `C128_one_at_own_point_zero_elsewhere`, `C128_reproduction`, `C129_largest_value`, `C129_unbound_argmax`, `C131_replacements`, `C131_volume_times_lambda_partial`, `C145_indices_in_square_region`, `C149_rhos`, `C152_proposals`, `C152_rejected`, `C202_rhos`, `C207_rotated_model`, `C207_permuted_model`, `C212_sum_of_old_and_fitted_model`, `C212_succeeds`, `C213_residualized_partial`, `C215_upper_limits`, `C215_lower_limit`, `C216_initial_model`.

**F, N, E** (158 theorems): `C07_region_query_exact`, `C16_unit_maps_inverse_sphere`, `C43_fit_tranquilo_minimizes_penalty_weighted_norm`, `C43_fitted_values_of_rescaled_regression`, `C44_powell_never_raises`, `C48_drop_worst_points_removes_n`, `C48_drop_excess_bound`, `C48_too_many_to_drop_raises`, `C49_current_point_is_kept`, `C50_removed_points_are_farthest`, `C50_interior_rule`, `C57_cg_within_radius`, `C58_cg_residual_and_descent`, `C58_cg_model_decrease`, `C59_stcg_within_radius_partial`, `C59_stcg_within_radius_refuted`, `C60_trsbox_in_box`, `C61_methods_terminate`, `C62_measure_zero_iff_KKT`, `C67_candidate_in_bracket`, `C67_initial_bracket_ordered`, `C69_smallest_step`, `C70_optimality`, `C70_interior_exit`, `C71_inscribed_cube_in_unit_ball`, `C71_reparametrized_in_unit_ball`, `C71_reported_criterion`, `C72_ball_and_descent_partial`, `C72_ordered_coordinates_partial`, `C72_raises_refuted`, `C72_outside_bounds_refuted`, `C72_center_at_bound_refuted`, `C75_pairs_considered`, `C76_selection`, `C76_weighted_mean`, `C77_finite_partial`, `C77_single_evaluations`, `C77_nan_variance_refuted`, `C86_convergence_criteria`, `C98_relative_gradient_refuted`, `C100_fit_ridge_minimizes_penalized_error`, `C101_dropping_composes`, `C103_cg_fast_equals_cg`, `C104_trsbox_within_radius`, `C105_trsbox_model_decrease`, `C109_interior_minimizer_partial`, `C109_interior_minimizer_refuted`, `C110_negative_curvature_partial`, `C110_negative_curvature_refuted`, `C111_interior_stationary_refuted`, `C111_interior_stationary_partial`, `C112_unsuccessful_lower_bound`, `C112_failed_pass`, `C113_initial_bracket`, `C113_fresh_pass_partial`, `C113_bracket_refuted`, `C114_converged_norm`, `C116_lagrange_polynomial`, `C116_value_error`, `C116_maximizes`, `C118_covariance_partial`, `C118_single_evaluations_refuted`, `C130_poisedness_constant_partial`, `C130_poisedness_constant_refuted`, `C131_determinant_partial`, `C131_volume_never_decreases_partial`, `C131_volume_refuted`, `C133_uniform_within_bounds`, `C133_uniform_rejects_inconsistent_bounds`, `C133_invalid_arguments`, `C133_triangular_within_bounds_partial`, `C133_triangular_nan_refuted`, `C134_multistart_values_in_cube`, `C135_determinant_criterion`, `C135_existing_points`, `C137_first_step_partial`, `C138_compiled_agrees`, `C138_compiled_feasible`, `C138_interpreted_partial`, `C138_interpreted_refuted`, `C139_gradient_untouched`, `C146_found`, `C146_ends`, `C146_does_not_end`, `C146_nearest_refuted`, `C147_points_located_partial`, `C147_points_located_refuted`, `C147_other_optimizers`, `C148_one_iteration`, `C148_several_iterations`, `C148_iterations_by_case`, `C148_rejected`, `C148_processed_refuted`, `C149_distances`, `C165_smallest_second_order_coefficients_partial`, `C165_linear_functions_partial`, `C165_linear_functions_refuted`, `C166_hessian_norm_partial`, `C166_smallest_hessian_refuted`, `C170_border_partial`, `C177_fit_is_exact`, `C177_model_is_exact`, `C177_ridge_is_not_exact`, `C183_relative_change_refuted`, `C186_same_value`, `C186_same_point_partial`, `C186_same_point_refuted`, `C187_stcg_fast_same_result`, `C188_singular_value_estimate`, `C192_units_partial`, `C192_three_parameters_refuted`, `C193_cg_units`, `C193_relative_tolerance`, `C193_default_tolerances`, `C194_steihaug_units`, `C197_fresh_exit`, `C197_near_optimal_partial`, `C197_near_optimal_refuted`, `C198_cauchy_decrease`, `C198_decrease_bound`, `C200_problem`, `C200_minimizer`, `C201_reparametrized`, `C201_inscribed_cube`, `C201_inscribed_cube_sharp`, `C204_two_parameters_partial`, `C204_one_parameter_refuted`, `C204_heat_map`, `C205_cauchy_decrease_partial`, `C205_decrease_bound_partial`, `C205_cauchy_decrease_refuted`, `C206_cauchy_decrease_partial`, `C206_decrease_bound_partial`, `C206_cauchy_decrease_refuted`, `C207_fit`, `C207_fit_powell`, `C207_rotated_fit`, `C208_sample_order`, `C208_repeated_points`, `C209_powell_order_partial`, `C209_powell_order_other_sizes`, `C209_powell_order_refuted`, `C210_first_points`, `C210_repeated_point`, `C210_order_of_evaluations`, `C211_weighted_averages`, `C211_equal_evaluations`, `C211_equal_evaluations_ridge`, `C211_unequal_evaluations`, `C211_model_data`, `C212_least_change_tranquilo`, `C212_least_change_ols`, `C212_determined`, `C213_determined_partial`, `C213_powell_partial`, `C213_affine_refuted`, `C214_level_and_scale`, `C214_covariance`.

**F, N, C, E** (190 theorems): `C14_cube_inside_bounds_contains_center`, `C14_cube_not_degenerate`, `C15_sphere_never_reaches_bounds`, `C17_map_from_unit_cube_in_bounds`, `C18_one_sided_bounds_partial`, `C18_one_sided_bounds_refuted`, `C19_conversion_preserves_volume`, `C19_radius_inverts_volume`, `C19_volume_scaling`, `C19_cube_radius_at_most_sphere_radius`, `C24_accepted_iff_improvement`, `C24_accepted_iff_improvement_all`, `C25_rejection_keeps_point`, `C25_accepted_is_history_entry`, `C26_accepted_value_is_finite`, `C26_nonfinite_candidates_rejected`, `C27_deciders_report_rho`, `C28_exact_number_of_evaluations`, `C29_line_search_accepts_best_of_batch`, `C30_line_search_points_in_bounds_partial`, `C30_line_search_points_in_bounds_refuted`, `C31_reported_value_is_mean_partial`, `C31_reported_value_is_mean_refuted`, `C52_a_close_point_is_kept_partial`, `C52_isolated_center_is_kept_partial`, `C52_center_kept_refuted`, `C53_improvement_is_model_decrease`, `C54_cube_feasible`, `C56_sphere_feasible_refuted`, `C56_sphere_feasible_partial`, `C61_bntr_feasible`, `C61_bntr_terminates`, `C64_accepted_step_partial`, `C64_accepted_step_refuted`, `C65_criterion_partial`, `C65_criterion_refuted`, `C66_update_radius`, `C66_radius_within_limits`, `C73_hull_sampler`, `C73_interior_sampler`, `C73_optimal_hull_partial`, `C73_optimal_hull_refuted`, `C74_optimal_sample_partial`, `C74_no_points`, `C74_nan_points_refuted`, `C78_states_are_consistent`, `C78_solution_is_last_accepted`, `C79_iterations_and_budget`, `C80_values_do_not_increase`, `C81_value_is_mean_of_evaluations`, `C81_value_is_criterion_value`, `C81_deterministic_criterion`, `C82_radius_within_limits`, `C83_index_sets`, `C84_enough_evaluations`, `C85_current_point_in_model`, `C86_loop_reports_convergence`, `C87_message_partial`, `C87_no_message_refuted`, `C88_max_time_refuted`, `C88_min_trust_region_radius_refuted`, `C89_stagnation_loops`, `C90_evaluations_per_iteration`, `C91_progress_partial`, `C91_converged_without_progress_refuted`, `C92_candidates_are_not_better_partial`, `C92_better_point_evaluated_refuted`, `C93_always_the_start_model_refuted`, `C93_first_iteration_partial`, `C94_evaluations_within_bounds`, `C97_accepted_partial`, `C97_basic_accepted`, `C97_defaults_accepted`, `C97_values_used`, `C97_unknown_model_type`, `C97_nan_search_radius_refuted`, `C106_poor_agreement_partial`, `C106_poor_agreement_refuted`, `C106_cg_radius_update`, `C107_fast_raises_refuted`, `C107_numpy_never_divides_by_zero_partial`, `C108_bntr_fast_agrees`, `C115_run_returns_a_result`, `C117_soft_minimum`, `C117_monotone`, `C122_defaults_partial`, `C122_cores_refuted`, `C122_sample_size_refuted`, `C122_infinite_limit_refuted`, `C123_derived_defaults`, `C123_fit_determined`, `C123_n_evals_default`, `C126_without_noise_rho_is_one`, `C127_noise_free_decrease_partial`, `C127_noise_free_increase_refuted`, `C132_degenerate_samples`, `C132_too_few_points`, `C132_more_points`, `C132_log_of_determinant`, `C132_order_irrelevant`, `C136_pass`, `C136_result`, `C137_minimizer_refuted`, `C140_builtin_components_good`, `C141_deterministic_runs_succeed`, `C142_evaluations_within_bounds_partial`, `C142_evaluations_within_bounds_refuted`, `C143_evaluated_in_order`, `C144_run_partial`, `C144_run_refuted`, `C149_cluster_ratio`, `C149_no_points`, `C154_ieee_operations`, `C155_mapped_points_in_bounds`, `C155_candidate_in_bounds`, `C156_center_in_unit_cube_partial`, `C156_center_of_sphere`, `C156_center_in_unit_cube_refuted`, `C157_sample_moves_partial`, `C157_collapse`, `C157_sample_moves_refuted`, `C158_projection_in_unit_cube_partial`, `C158_cube_on_hull`, `C158_hull_points_in_bounds_partial`, `C158_projection_in_unit_cube_refuted`, `C159_radius_in_limits`, `C159_no_growth`, `C159_reaches_minimum`, `C160_next_multiple`, `C161_region_in_search_ball`, `C162_last_region_found_again_partial`, `C162_last_region_found_again_refuted`, `C163_iteration`, `C164_radius_update`, `C167_when_the_line_search_raises`, `C167_line_search_decides_partial`, `C167_line_search_decides_refuted`, `C168_improvements_are_taken_partial`, `C168_improvements_are_taken_refuted`, `C169_rho_of_accepted_steps_partial`, `C169_rho_of_accepted_steps_refuted`, `C170_border_refuted`, `C171_rejection_shrinks_partial`, `C171_rejection_shrinks_refuted`, `C171_builtin_expectations`, `C172_rejections_are_bounded`, `C173_accepted_steps_are_bounded`, `C174_no_minimum`, `C174_minimum_partial`, `C174_minimum_refuted`, `C175_rho_sign_partial`, `C175_rho_sign_refuted`, `C175_rho_accuracy`, `C175_rejection_shrinks`, `C176_mean_accuracy`, `C176_mean_between_partial`, `C176_mean_between_refuted`, `C176_constant_criterion_refuted`, `C178_exact_steps`, `C179_noisy_runs_succeed`, `C180_start_values_finite`, `C180_not_finite_start_raises`, `C181_evaluations_bounded`, `C181_accepted_points_evaluated`, `C182_errors_do_not_depend_on_stopping`, `C182_longer_runs_continue`, `C182_history_continues`, `C182_longer_runs_are_not_worse`, `C183_translated_runs_partial`, `C183_border_refuted`, `C184_builtin_runs`, `C185_padding_is_not_read`, `C189_gradient_norm`, `C189_small_gradient_partial`, `C189_small_gradient_refuted`, `C190_good_steps_reach_the_target`, `C190_convex_criteria_are_minimized`, `C191_iteration`, `C191_linear_rate`, `C195_small_region_succeeds`, `C195_next_radius`, `C196_radius_stays_large`, `C196_successes_and_failures`, `C196_number_of_iterations`, `C199_promised_improvement`, `C199_good_iterations`, `C199_number_of_iterations`, `C202_fekete`, `C202_cluster_ratios`, `C203_run`.

<!-- end axioms -->

## 6. Not modelled

Floating-point rounding/overflow outside of `FloatModel.v` (C154-C160) and `FloatAcceptModel.v` (C174-C176); parallelism of the batch evaluator (its result list order
is assumed to be the argument order, as joblib guarantees); numpy dtype conversion and shape
errors of linear algebra; the drawing in `visualize.py` (its data are modelled); `config.py`
(constants that nothing uses); tests, logging and warnings; the estimagic wrapper; LAPACK/BLAS internals; scipy optimizers; numba
compilation.

## How to read seeded/LOG.jsonl

Each line is one edit of the model in a scratch copy.
- `lemmas_failed` are the statements whose proof scripts no longer compiled. They were admitted in the scratch
  copy to carry on.
- `theorems_failed` are the theorems that failed or that rest on such a lemma (Print Assumptions). This shows that
  the proof does not go through as written. It does not show that the theorem is false of the edited program: the
  controls tf8, v1 (of m7) and sh19 change nothing that matters and still break proofs, and C214 stays true in vs2.
- Only the modules that the edit was aimed at were rebuilt, so the list of failed theorems is not complete.
- `survived` means that no theorem of these modules failed, `missed` that theorems failed but none of the property
  the edit was aimed at, `not_evaluated` that the edited copy could not be built to the end.
- An id with `@mK` is an attempt of batch K whose id was used again by a later batch, often for a repetition after
  theorems were tightened.
- Until late in the work the log left out ten attempts (controls, equivalent edits and the survivors bb2 and bb3),
  the ones that could not be evaluated and those whose id was used twice. They are all listed now.
