# WxFactory: a Rocq (Coq) model and proofs

This file says, for each property of `properties.jsonl`, what is modelled, how it is proved, and what is trusted.

## Conventions

* `rocq/theories/<Area>Model.v` holds only definitions. Each definition cites the file and lines of `/repo` it models
  and says where it simplifies.
* `rocq/theories/<Area>Spec.v` holds the independent specification: small definitions a reader can check against the
  English property. It does not use helpers of the model beyond what the API itself returns.
* `rocq/theories/<Area>Proofs.v` and other files of the area hold lemmas.
* `rocq/theories/<Area>Props.v` holds only the property theorems (`exact lemma`), `Print Assumptions`, and an `Example`
  beside each that meets the hypotheses.
* `_partial` marks a theorem that covers only part of a property. `_refuted` marks a property the code violates: the
  theorem exhibits a witness or proves the negation.

## Numbers

Floating-point numbers are modelled by exact reals (`R`), rationals (`Q`) or elements of an arbitrary field, and integers
by `Z` or `nat`. Python `int` is unbounded, so `Z` is exact. Rounding, overflow and NaN are not modelled unless a theorem
says so (the `_float_` refutations of C18, C19, C21 and C33, and the NaN cases of C50 and C69). A theorem over exact
numbers says what the algorithm does without rounding; it does not bound rounding errors. A refutation over exact
numbers is a case where the algorithm itself is wrong.

## Processes

MPI is modelled by functions of all ranks at once: a collective takes the list of the contributions of the ranks and
returns the list of results; a neighbour exchange is a permutation on the declared graph. The theorems hold for every
number of ranks. Message loss and the MPI implementation are not modelled.

## External code

numpy, scipy, mpi4py, cupy, sqlite3 and the operating system enter in three ways: as a plain definition where the
behaviour is simple (reshape, sort, ceil), as a quantified argument with stated assumptions (QR, SVD, matrix
exponential, error estimates, the integrator in the time loop), or not at all.

## Plan per property

Files are in `rocq/theories`. The theorems are in the `Props` file of the area. Status and notes are those of `MANIFEST.json`.

| id | property | model | what is modelled | proof | status |
|----|----|----|----|----|----|
| C01 | Process count acceptance | TopologyModel | size test of `ProcessTopology.__init__`; `int(sqrt)` as `Nat.sqrt` | arithmetic on squares, all counts | proved |
| C02 | Rank to tile location is a bijection | TopologyModel | maps rank -> panel, row, column | division lemmas, all k | proved |
| C03 | Neighbour graph is well formed and symmetric | TopologyModel | neighbour tables as functions of k | case analysis over the 6 panels and 4 sides, `lia`, all k | proved |
| C04 | Neighbours are the tiles that share the physical edge | TopologyModel; specification: an embedding of the panels in the surface of an integer cube | neighbour tables and flip flags | case analysis, `lia` | proved |
| C05 | Scalar halo exchange delivers the physically coincident values | TopologyModel, ExchangeProofs | the exchange as a neighbour all-to-all on the declared graph; flips as list reversal | from C03 and C04 | proved |
| C06 | Contravariant vectors are converted to the neighbour's basis | TopologyModel, TangentProofs | the 24 conversion lambdas over R; specification: the gnomonic map and its derivative | `field` | proved |
| C07 | Covariant vectors are converted to the neighbour's basis | as C06 | the 24 lambdas for covariant components | `field`; a counterexample for the wrong entry | partial |
| C08 | Vector halo exchange end to end | as C05 and C06 | conversion, flip and exchange together | C05 + C06 | proved |
| C09 | Exchange shape computation | ShapeModel | the loop of `get_base_shape`, exceptions as values | induction on the shape | proved |
| C10 | Gather and distribute are mutually inverse | ShapeModel | gather/concatenate and slice/scatter on nested lists | list lemmas | proved |
| C11 | SingleProcess runs the body once and everybody agrees | MpiModel | ranks as a list of outcomes, collectives as functions of the whole list | case analysis over outcomes | proved |
| C12 | MultipleProcesses reports failures collectively | MpiModel | as C11 | as C11 | proved |
| C13 | NaN detection stops all ranks together | MpiModel | the reduction of the NaN flag | induction over ranks | proved |
| C14 | Accepted configuration values respect their declared range | ConfigModel, SchemaModel | reading of a field, conversions, range tests | induction over fields and lists | proved |
| C15 | Defaults, missing options and dependencies | ConfigModel, SchemaModel | defaults, dependencies, the shipped schema as data | induction over fields | proved |
| C16 | Dependency ordering | ConfigModel | `sort` of the schema | permutation and order lemmas | proved |
| C17 | Expression evaluation is confined to arithmetic | ExprModel | expression trees, evaluation with exceptions | structural induction | proved |
| C18 | angle24 codec | ExprModel | encode and decode over R and Z; a binary64 counterexample computed with exact integers | real arithmetic | proved |
| C19 | Time stepping reaches t_end exactly and in the announced number of steps | SimModel | the time loop as a state machine; the integrator is a parameter | invariant of the loop | proved |
| C20 | Running a simulation again reproduces it | SimModel | `run` and `reset` | the negation, for every simulation that makes a step | partial |
| C21 | Restarting from a saved step continues the same trajectory | SimModel | start from a saved step | simulation relation between two runs | proved |
| C22 | Output, state saving and block statistics happen at the requested steps | SimModel | the three frequency tests | invariant counting multiples | proved |
| C23 | Writing output does not change the simulation | SimModel | output as a function on the state | equality of trajectories; counterexample for the netCDF writer | partial |
| C24 | Allowed process counts | SimModel, TopologyModel | `allowed_pe_counts` | divisibility | partial |
| C25 | State files of different steps do not collide and can be read back | FilesModel | file names as strings, state files as byte lists | injectivity of decimal printing | partial |
| C26 | Final report can always be printed | SimModel | `_readable_time` | arithmetic; refutation above 1000 s | partial |
| C27 | Solver statistics rows are keyed consistently | StatsModel | the database as lists of rows, transactions, concurrent runs | invariant over histories | proved |
| C28 | EPI history | EpiModel | history of `Epi` as a state machine | invariant | partial |
| C29 | Order conditions of the computed EPI coefficients | AlphaModel | `alpha_coeff` by exact elimination; the fixed tables | Vandermonde algebra | partial |
| C30 | Butcher tableaux are consistent | ButcherTables, ButcherModel | the literals of the nine tableaux as rationals, the validation, the choice of the method | a checker over all rooted trees proved sound, then computed by the kernel; order on linear problems by induction on the exponential series | partial |
| C31 | Adaptive Runge-Kutta step size control | RkModel | `_step_impl`, the controllers, the loop of the solver | invariants | partial |
| C32 | Operator splitting and explicit integrators cover exactly one step | StepModel | splittings as words of sub-steps; one step of each method over an abstract vector space | algebra of words, series | partial |
| C33 | KIOPS time-step and basis-size controller | KiopsModel | the controller; error estimates and breakdowns are arbitrary inputs | invariant over every sequence of passes | partial |
| C34 | KIOPS restart of the augmented system | KiopsModel | the augmented vector and product | derivatives (Coquelicot), counterexample | partial |
| C35 | FGMRES control flow | FgmresModel | the whole solver over an abstract inner product space | induction over cycles | proved |
| C36 | Jacobian-vector products | StepModel | finite difference and complex step products | algebra, polynomials | proved |
| C37 | Metric tensors are mutually inverse | GeoModel | metric formulas over R | `field`, double integral of the area element | partial |
| C38 | Christoffel symbols derive from the metric | GeoModel | stored Christoffel symbols | derivatives (Coquelicot) | proved |
| C39 | Wind conversions are mutually inverse | GeoModel | wind conversions in two and three dimensions | `field`; counterexample over a slope | partial |
| C40 | Tiles and panels cover the sphere without gap | GeoModel | tile domains, rotations of the grid, gnomonic map | analysis of angles | proved |
| C41 | Memory-layout conversions are permutations | LayoutModel | index maps of reshape and transpose | arithmetic in mixed radix, all sizes | partial |
| C42 | Gauss-Legendre quadrature exactness | QuadModel | explicit rules up to five points | algebraic numbers by their defining equations | proved |
| C43 | Exact matrix inversion | OpModel, OpReduce | `row_reduce`, `inv` over any field | mathcomp matrices, induction | proved |
| C44 | Lagrange interpolation and differentiation operators | OpModel, OpLagrange | Lagrange evaluation and differentiation | uniqueness of interpolation | proved |
| C45 | Linear interpolation weights | OpModel | `get_linear_weights` | case analysis on sorted nodes | proved |
| C46 | Numerical fluxes are single valued at interfaces (conservation) | FluxModel, FluxLoops, FluxFaces | fluxes and the loops that place them, Python and compiled | case analysis, induction over loops | proved |
| C47 | Numerical fluxes are consistent | FluxModel | as C46 | algebra over R | partial |
| C48 | Vorticity diagnostic | DiagModel, OpModel | `relative_vorticity` with the derivative operators | counterexamples; a partial formula | partial |
| C49 | Multigrid cycle | MgModel | levels, cycle with its trace of events | induction over levels | proved |
| C50 | Exponential smoother never increases the residual | SmoothModel | the exponential smoother; the matrix exponential and eigenvalues are arbitrary | case analysis of the final comparison | partial |
| C51 | Device assignment | DeviceModel | choice of the device | counting lemmas | partial |
| C52 | GCROT recycled space stays bounded | GcrotModel | lists of recycled pairs | induction over solves | partial |
| C53 | Time coordinate of dynamic output | SimModel | time stamps of the netCDF records | arithmetic | partial |
| C54 | Exponential solver based on Runge-Kutta reports failure | RkModel | `exode` | case analysis | partial |
| C55 | Three-dimensional metric over topography | GeoModel, GeoMetric3 | three-dimensional metric, averaging at interfaces | `field`, determinants | partial |
| C56 | Rotation terms of the three-dimensional equations | GeoModel | symbols with a time index in three dimensions | `field`; counterexample | partial |
| C57 | Spatial Christoffel symbols of the three-dimensional grid | GeoModel, GeoMetric3 | the linear system for the spatial symbols | linear algebra of 3x3 matrices | proved |
| C58 | Extrapolation, derivative and correction operators | OpModel, OpDfr, OpTensor | extrapolation, derivative, correction; Kronecker products | polynomial interpolation | proved |
| C59 | Filters and changes of order act on modes | OpModel, OpFilter, OpLegendre | modal filters, change of order | Legendre polynomials | partial |
| C60 | Check of the differentiation matrix | OpModel | the check of the differentiation matrix | symmetry of Lagrange polynomials | proved |
| C61 | Compiled and Python fluxes agree (Euler on a plane) | FluxModel, FluxLoops | C++ kernels against Python | equality of the two models | proved |
| C62 | Conservation by the space discretisation | RhsModel, SwModel, EulModel, EulRhs | right-hand sides with their exchange | summation by parts, Gauss quadrature, pairing of interfaces | proved |
| C63 | Energy and enstrophy diagnostics | DiagModel | energy, potential vorticity, enstrophy | algebra, integrals | proved |
| C64 | Forcing of the Euler equations on the cubed sphere | FluxModel | forcing, Python and compiled | algebra | proved |
| C65 | Source terms of the shallow water equations | SwModel | forcing of the shallow water equations | algebra with C38 | proved |
| C66 | Still fluid keeps its depth | SwModel | the whole right-hand side | interface flux vanishes at rest | proved |
| C67 | The number of processes does not change the results of the shallow water model | SwModel, SwParallel | right-hand side of k x k tiles against whole panels | locality of the operators, exchange lemmas | proved |
| C68 | GCROT does not make the solution worse and tells whether it converged | GcrotModel | the whole solver; QR, SVD, least squares are arguments | projections in an inner product space | partial |
| C69 | FGMRES minimises the residual and never makes it worse | FgmresModel | the whole solver | Arnoldi relation, orthogonality, minimal residual | partial |
| C70 | A multigrid pass is a consistent linear iteration | MgModel, SmoothModel | one pass, Runge-Kutta smoothers | linearity by induction over levels | partial |
| C71 | The default solver for phi functions advances exactly to the last output time | PmexModel | the controller of pmex, and the whole loop with an arbitrary operator and exponential | invariant over every sequence of passes; a rotation for the refutations | partial |
| C72 | The default solver for phi functions returns the Krylov approximation of the augmented exponential | PmexModel, PmexSpec | the augmented product, the orthogonalisation with one synchronisation, the exponential as the sum of its series | invariant of the Arnoldi relation with deferred normalisation; block structure of the exponential | partial |
| C73 | The statistics of the solvers for phi functions describe the run | KiopsModel, PmexModel | the counters | invariant over every sequence of passes | partial |
| C74 | kiops returns the incomplete Krylov approximation of the augmented exponential | KiopsLinear, PmexSpec | the arrays V and H of kiops, incomplete orthogonalisation, the exponential as the sum of its series | invariant of the banded Arnoldi relation over every sequence of passes; the column of the exponential as a power series | partial |
| C75 | The shallow water test cases start from the balanced states they are named after | InitModel, InitSpec, SwModel | the initial states of the cases 1, 2, 5, 6 and 10 at a point, with the winds converted to contravariant components, the fluxes and the forcing of the right hand side | derivatives of the fluxes in gnomonic coordinates, the balance as an identity of rational functions; the Rossby-Haurwitz wave as a polynomial identity modulo sin^2 + cos^2 = 1 | proved |
| C76 | The Euler test cases start from the balanced atmospheres they are named after | AtmoModel, AtmoSpec, FluxModel | the initial states of the Euler cases 11, 12, 20, 21, 22, 31, 77 and of the plane cases 0 and 2 at a point, the prescribed winds, the tracers, the sponge layer | derivatives with Coquelicot, the equation of state inverted, the balances as identities; the bells apart by the sum of two cosines | partial |
| C77 | Every test case that the configuration can name starts, and the others are refused | StartModel, StartSpec | the shapes of the arrays, the arity of the calls and the names in scope on the way from a case number to the state | broadcasting of equal shapes, evaluation of the checks for every grid | partial |
| C78 | The stiffness resilient exponential methods are exact up to their order, however stiff the linear part is | SrerkModel, SrerkSpec | the nodes, the coefficients and the stages of srerk.py in a normed space, with the solver of phi functions as an argument | Rodrigues formula and Rolle for the nodes, order conditions of the coefficients (C29), division by the node polynomial for the quadrature | proved |
| C79 | The nonlinear solver returns a solution whenever it reports one | NewtonModel, NewtonSpec | newton_krylov, its line search with the stored value, and the finite difference of KrylovJacobian; scipy and fgmres as arguments | invariant of the loop: the stored value is F at the state | partial |
| C80 | The implicit integrators are stable for every step size | StableModel, StableSpec, StepModel | sdirk.py; the other integrators as in C32, over vector spaces with an inner product | algebraic stability: the change of the squared distance is a sum of inner products that are not positive | proved |
| C81 | The matrix assembled from an operator is the operator, and stored matrices are read back | AssembleModel, AssembleSpec | gen_matrix on all processes at once, save/load_matrices, store/load_matrix_set, Factorization.prepare and apply | the operator is the sum of its values at unit vectors; archive keys are distinct; induction on the list of matrices | partial |
| C82 | The exponential solvers with fewer synchronisations build the same basis as the default one | LowsyncModel, LowsyncSpec | the orthogonalisation of the eleven files selected by exponential_solver: matrices T, N and their inverses, lagged norms, resumed passes, reductions over processes | one invariant for the three orders of operations (vectors orthonormal, T inverse of the Gram matrix, last vector not yet divided by its norm); uniqueness of the Arnoldi decomposition; counterexamples by computation in R | partial |
| C83 | The statistics printed during a run describe the state of the step | StatModel, StatSpec | __blockstats__ and its calls over a run, with the clock of the simulation | sums and maxima over the list of all points; induction on the steps of the run | partial |
| C84 | The number of processes does not change the results of the Euler model on the cubed sphere | EulModel, EulRhs, EulCutSpec | right-hand side of the Euler equations of k x k tiles against whole panels | locality of the fluxes and operators, exchange lemmas for slabs | proved |
| C85 | An atmosphere at rest under one pressure feels nothing but gravity | EulModel, EulRhs, EulSymbols, EulRestSpec | state at rest, symbols solving the system the code solves | fluxes at faces between equal states; operators on constants and multiples; balance of the system (GeoFinal) | proved |
| C86 | The layers of the atmosphere follow the terrain | EulTerrain, EulSlopes, EulTerrainSpec | heights over a terrain, slopes and thickness from them with the exchange between tiles | affine heights; exactness of the DFR derivative (OpModel); averaging of equal halo values | proved |
| C87 | The implicit and exponential integrators do not depend on the number of processes | ParSolveModel, ParSolveSpec, ParNewtonModel, ParNewtonSpec, ParExpModel | fgmres, pmex, kiops, newton_krylov and the integrators that use them, with the entries each process holds; tiles and panels as two distributions | a relation between two vector spaces kept by every operation of the solvers; permutation of the entries | partial |
| C88 | The stiff and nonstiff parts of the shallow water equations sum to the whole | SwSplitModel, SwSplitSpec | both functions on all tiles in the older layout of the arrays | the extrapolated values, the halo, the metric and the fluxes of the two layouts are equal; then algebra at each interface and point; mass from C62 | proved |
| C89 | Transport of a tracer on the sphere keeps its total, is linear and upwind | AdvModel, AdvSpec | rhs_advection2d on all tiles | flux at a side of a tile is minus that of the neighbour after the exchange, metric even across edges (lemmas of C62); cancellation in pairs; linearity through the exchange; exactness of the corrected derivative (C58) | proved |
| C90 | The older right-hand sides on a vertical plane keep mass and obey the momentum balance | PlnModel, PlnSpec | rhs_bubble_implicit, rhs_bubble_convective and rhs_bubble_fv, line by line of elements, with the loops over interfaces and the arrays of faces | loop invariant: one flux per interface, walls untouched; divergence theorem of a line (C62) and telescoping; exactness of the corrected derivative (C58); consistency of the fluxes | partial |
| C91 | The name of the time integrator decides the method, its order and its tendencies, and every listed name can run | SelModel, SelSpec | _create_geometry, init_state_vars (the choice), _create_preconditioner, RhsBundle, _create_time_integrator, with slices, isdigit and int of texts, attributes that may be missing, and which right-hand sides a first step evaluates | tables of names as inductive relations; induction over decimal digits for the orders; case analysis of the texts | partial |
| C92 | The exponential solver of the configuration is the one that a run uses | ExsModel, ExsSpec | the branches on exponential_solver in the steps of epi, epi_stiff, srerk and rosexp2 | case analysis of the text against the list of the schema | partial |

## What is modelled, by source file

| source | modelled | not modelled |
|----|----|----|
| `process_topology.py` | all tables, conversions, exchanges, gather and distribute | timing, GPU buffers |
| `wx_mpi.py` | the context managers, NaN reduction | printing |
| `common/configuration*.py` | schema, reading, defaults, dependencies, sort | writing of the file with comments |
| `common/eval_expr.py`, `angle24.py` | all | |
| `common/interpolation.py` | Lagrange weights, linear weights, change of order | l2 norm variant (raises always) |
| `simulation/simulation.py` | the loop, start, output decisions, device choice, process counts | problem set-up |
| `output/*` | state files, statistics database, netCDF times and the change of the state, diagnostics, the statistics printed on the cubed sphere | drawing, fst files |
| `geometry/*` | grids, metrics, symbols, winds, operators, quadrature up to 5 points, layouts | scipy rules above 5 points |
| `pde/*`, C++ kernels of the same routines | fluxes, forcings | GPU launch parameters |
| `rhs/rhs_sw.py`, `rhs_sw_stiff.py`, `rhs_sw_nonstiff.py`, `rhs_advection2d.py`, `rhs_dfr.py`, `rhs_bubble.py`, `rhs_bubble_implicit.py`, `rhs_bubble_convective.py`, `rhs_bubble_fv.py` | the assembled right-hand sides, with the exchange between all tiles | `rhs_euler*.py` (three dimensions); `rhs_fv.py` (its first call reads `self.q`, which no constructor sets) |
| `integrators/*` | euler1, tvdrk3, epi, epi_stiff, ros2, rosexp2, partrosexp2, imex2, bdf2, crank_nicolson, backward_euler, splitting, explicit Runge-Kutta with all tableaux, srerk, sdirk | `*_for_others` |
| `solvers/*` | kiops (control and augmented system), pmex (all), the orthogonalisation of `pmex_*`, `cwy_*`, `icwy_*`, `kiops_nest` and `dcgs2`, exode, fgmres, gcrot, matvec, nonlin, eigenvalue_util | the step control of those variants where it differs from kiops and pmex (`icwy_neiop` and others take `iop` and ignore it) |
| `precondition/*` | multigrid pass and levels, smoothers except kiops, factorization | preconditioner_dg, preconditioner_fv (not imported anywhere) |
| `device/*` | choice of the device | cupy |
| `init/*` | initial states of the cases that can be started, shapes and calls of all of them | the Galewsky jet, the vortex, the Matsuno waves (they cannot be started, C77), reading from files |
| `stiff_pdes/*`, `scripts/*` | | all |

Simplifications are stated at each definition.

## Where the code and a property disagree

Each item is proved by the theorem(s) named.

* `convert_covs`, panel 2 south (`process_topology.py`): the entry is not the inverse transpose (`C07_covariant_refuted`).
* Fewer than 6 processes: the suggested lower count is 0, which is refused (C01).
* `newton_krylov` without `maxiter` allows 100 (n + 1) iterations, where n is the number of entries of one process (`nonlin.py` 57-58): the limit, and the result when no solution is found, depend on the number of processes (`C87_newton_default`).
* `fgmres` tests for stagnation on the entries of each process separately (`fgmres.py` 260-266): one process can return while the others wait for it in the next `allreduce` (`C87_refuted`). `gcrot` takes all norms of the local entries only, so its processes can stop after different numbers of iterations (not modelled on several processes).
* `get_base_shape` raises IndexError where ValueError is documented (C09). One-dimensional fields lose data when gathered (C10).
* A body that returns the private failure value makes all ranks raise (C11). Ranks that did not fail continue (C12).
* `exp_smoothe_spectral_radii` may be empty, then IndexError (C15). Chains of dependencies are not sorted (C16).
* `angle24`: interval and binary64 round trip (C18). Number of steps with binary64 times, `dt = 0` (C19).
* `run()` does not reset the time (C20). Restart forgets the history of multistep methods (C21).
* The netCDF writer adds the topography to the state (C23) and stamps a shortened last step with the full step (C53).
* A usable process count is not listed (C24). Text of state files comes back with doubled newlines, the version is ignored (C25). Durations above 1000 s cannot be printed (C26).
* Changes of dt below 1e-10 keep the EPI history (C28). `EpiStiff` passes nodes of the wrong sign (C29).
* DP8(7): the two rows of weights are exchanged; DP5(4) is rejected by its own validation; the default method of exode does not exist; the comment on M4(3) is false (C30).
* Methods without the first-same-as-last property reuse a stage at the wrong time; controllers given as tuples are ignored (C31). A failed exode call returns silently (C54).
* BDF2: start-up covers half a step, coefficients ignore a change of dt (C32).
* KIOPS: negative output times, repeated final time, rounding past the end (C33); exponents of the augmented part in later substeps (C34).
* The area element is half of the right one (C37). The 3D wind round trip fails over slopes (C39). Averaging of slopes (C55). Rotation terms of the second coordinate (C56).
* Layout conversion with one element per tile side (C41). Change of order halves the highest common mode (C59).
* Euler on a plane: the interface flux of normal momentum lacks its advective term (C47).
* `rhs_bubble_convective` on a periodic domain takes the first column of elements for a copy of the last one; the grid has no such copy, and the mass of the domain changes (`C90_periodic_refuted`).
* `relative_vorticity` exchanges the components and drops the interface values (C48).
* Exponential smoother: NaN for an exact guess (C50). Negative device ids (C51). GCROT: recycled pairs exceed the bound (C52), flag always 0 and foreign pairs (C68). FGMRES raises for an exact guess (C69). `ark3` applies dt twice (C70).
* PMEX: endless rejection and an exception for a zero estimate (C71); a breakdown leaves out the last column of the Hessenberg matrix and returns a wrong result with error 0 (C72). KIOPS returns the size of the next basis, not of the last one (C73).
* `partrosexp2`, `imex2` and the Strang splittings are listed but cannot take a step with any configuration; `fv` fails at its first evaluation on the plane and is ignored on the cubed sphere (`C91_partitioned_refuted`, `C91_runs`, `C91_discretization_refuted`). `Simulation` passes the device as the `debug` argument of `RhsBundle` (no effect: `debug` is not read).
* `epi_stiff` uses kiops for every `exponential_solver` but pmex and exode, `rosexp2` always uses pmex, and `srerk` refuses exode and pmex_ne, which the schema accepts (`C92_refuted`, `C92_schema_refuted`, `C92_stiff`).
* The states of the warm bubble are not in hydrostatic balance where the temperature varies (C76).
* `newton_krylov` returns the last state when the passes are used up; no caller looks at the residuals (C79).
* Solvers with fewer synchronisations: augmented entries counted once for each process, division by zero for an invariant space, `dcgs2` without a normalised start; in `pmex`, `pmex_1s` and `pmex_ne1s` the lower triangular system of the projection is passed to `solve_triangular` without `lower=True`, so the correction for basis vectors that rounding has left not orthogonal is lost (C82).
* Statistics: analytic depth at a wrong time after a shortened last step, changes relative to the start of a restarted run (C83).
* Shallow water cases 0, 8, 9, 10, Euler case 20 and plane cases 0, 1, 3, 4 always raise an exception; Euler cases 11 and 12 return arrays of an older layout; the plane accepts unknown case numbers (C77).

Observed while reading, outside the modelled properties: `Multigrid.solve`, `MatvecOpBasic` and `OS22.__init__` refer to
names that do not exist; a preconditioner other than `none` cannot be constructed from the integrators; `RK1Smoother`
changes its argument in place; the l2-norm interpolation always raises; `filter_cutoff = 1` divides by zero;
after a breakdown with several output times kiops leaves a stale entry in `H[0, h]` (see C74); the acoustic wave 77 uses
the horizontal distance in its vertical profile; `PDEEulerCubesphere` allocates five variables, so cases with tracers
raise; gravity acts on a filtered density, so an isothermal atmosphere at rest has a small tendency of `rho_w`;
`rhs_euler_convective.py` and `rhs_euler_fv.py` call `dcmip_schar_damping` without its layout argument;
`rhs_sw_stiff.py` and `rhs_sw_nonstiff.py` are not used, and raise when called: `start_exchange_scalars` needs `boundary_shape` (C88 is about the functions with it);
the breakdown error of pmex (C72) is also in `pmex_1s`, `icwy_1s`, `icwy_ne`, `icwy_neiop`, `cwy_1s` and `cwy_ne`;
a branch of `cwy_ne` that exact arithmetic never reaches calls names that do not exist (`numpy.empty_link`, `gloal_sum_nrm`).

### What is missing from the partial properties

* C07. 23 of the 24 panel edges are proved; the entry for panel 2 south is wrong in the code, with a proved counterexample.
* C20. The property is false of the code: the negation is proved for every simulation that makes a step.
* C23. Refuted for the netCDF writer with topography, which adds the surface height to the state in place.
* C24. Extra refutation: the usable count with one element per tile side is not listed.
* C25. The state and all non-blank lines of the configuration text are recovered; the exact text is not (newlines come back doubled) and the version is not checked.
* C26. Holds up to 1000 s only; above, the negation is proved.
* C28. Holds for changes of dt above the comparison tolerance 1e-10 (C28_history) and, for any dt, up to the drift stated by C28_any_dt/C28_drift_bound; smaller changes keep the history (refuted).
* C29. alpha_coeff and the fixed tables satisfy the conditions; EpiStiff passes nodes of the wrong sign for every order >= 4 (refuted).
* C30. The literals of the source are taken as exact rationals. Row sums, sums of weights, triangularity: all nine methods. Order conditions over all rooted trees up to the declared order: the five methods with rational coefficients exactly, KC3(2) up to 1e-16 (error weights 1e-7, they are given with 8 digits); F10(8) and F14(12) only up to 6 and 5 nodes (missing: larger trees), but their declared orders are proved for the step on the linear problem with polynomial forcing that exode solves. Refuted: DP8(7) propagates the order-7 weights although order 8 is declared; DP5(4) is rejected by the validation of its own class (A is 6x5); the default method of exode does not exist; M4(3) is not of order 5 on homogeneous linear problems.
* C31. Step size control is proved; for methods whose last stage is not at the end of the step the next first stage is taken at the wrong time (refuted), and a controller given as a tuple is ignored (refuted).
* C32. Proved for every method except BDF2, whose start-up covers half a step and whose coefficients ignore a change of dt (both refuted); C32_bdf2_partial gives its order from a correct previous value.
* C33. Exact reals, every sequence of error estimates and breakdowns. Output times: proved for positive increasing ones; negative ones and a repeated final time are refuted, as is the double precision version (IndexError when the last substep rounds past the end).
* C34. The exponents used in later substeps are two too large (refuted for p >= 2); right in the first substep and for p = 1.
* C37. Metrics are proved; the declared area element is half of the right one everywhere (refuted), so the area of the whole sphere comes out as 2 pi R^2.
* C39. Two dimensions are proved. In three dimensions the conversion to winds is right and the round trip holds without topography; over any slope the round trip fails (refuted).
* C41. All sizes, except that the two-dimensional interface conversion loses an axis with one element per tile side, which erases longitudes and latitudes (refuted).
* C47. Proved for shallow water, the cubed sphere and the finite volumes. For Euler on a plane the interface flux of the normal momentum lacks its advective term (refuted), all else proved.
* C48. The components are exchanged and the derivative lacks the values on the sides of the elements (both refuted); the partial theorem says what is returned for winds that vanish on the sides.
* C50. A guess that already solves the system is replaced by a vector of NaN (refuted: comparisons with NaN do not reject it). When the result consists of numbers the residual does not increase.
* C51. Negative ids pass the filter (refuted); everything holds for lists without negative ids. cupy itself is not modelled: the id handed to it is.
* C52. The bound is exceeded: the approximate solution is appended after the truncation, and a solve that converges at once truncates nothing, so that a sequence of such solves grows the space by one pair each (refuted). Within a solve the newest pairs are kept; a solve leaves at most one pair more than the bound or than it found.
* C53. Exact stamps are proved; the property is false for a shortened last step.
* C54. Only finished integrations return the value at the end; failures are silent and persist (refuted).
* C55. The metric is proved; the averaging of slopes at interfaces changes equal values wherever X Y is not 0 (refuted).
* C56. Two of the three columns are proved; the column of the second coordinate is wrong everywhere off the equator (refuted).
* C59. Filters are proved. A change of order halves the highest common mode, which for order one is the constant (refuted).
* C68. Proved when the recycled products belong to the same operator (or discard_C is set); pairs from another operator can make the solution worse than the initial guess, for any number of passes (refuted), and the flag is always 0 (refuted). scipy qr, svd, lstsq enter as arguments; QR and SVD are assumed to return what they promise, nothing is assumed of lstsq.
* C69. An initial guess that is exact makes the solver raise (refuted). Otherwise proved, in exact arithmetic, for linear injective operators and preconditioners.
* C70. Proved for the pass and for erk1 and erk3. ark3 smooths another system (the time step is applied twice to the Jacobian), except for dt = 1 (refuted).
* C71. Substeps and sizes: proved for every outcome of the linear algebra. Rows at the output times: only for positive increasing times (negative ones are treated as in C33). Termination is refuted with a rotation of the plane: when halving the substep does not make the estimate smaller the exponent has the wrong sign and every pass is rejected with the same substep. An estimate of zero without breakdown raises.
* C72. Exact arithmetic; every matrix exponential that satisfies the power series is covered. The reproduction of polynomials and the exactness of the compressed exponential are proved for every accepted substep. The second half is refuted: when the basis is exhausted the last column of the Hessenberg matrix has not been stored, the result is wrong and the error is reported as zero. Without breakdown the error estimate is the integral of the defect of the approximation over the substep, and a substep is accepted exactly when it is within the tolerance; a bound on the error itself is not given.
* C73. One exponential is counted for each pass; those for output times inside of a substep are not counted. kiops returns the size proposed for a substep that does not take place (refuted); pmex returns that of the last substep.
* C74. Exact arithmetic; every matrix exponential that satisfies the power series is covered. Missing: substeps after the first that follow a breakdown with at least iop but fewer than mmax vectors. The matrix H is not cleared between substeps and the entry H[0, h] = 1 set for the error estimate is left behind by such a breakdown; a later substep with more vectors would use it.
* C76. Exact arithmetic, at every point, shallow atmosphere (the code itself notes that the cases 21 and 22 are not balanced on a deep atmosphere). Partial because the bubble on the vertical plane is not hydrostatic outside of its core: the Exner pressure is computed with the perturbed potential temperature as if it were uniform; C76_bubble_pressure says by how much.
* C77. Shapes, calls and names only: an array is its shape. Partial because nine of the documented cases cannot be started and two have the wrong layout (C77_starts_refuted, for every grid). For the cases 21 and 22 the two copies of the mountain, computed in two layouts, are assumed to agree to the last bit, as the code demands.
* C79. Exact reals; the linear solver and the scalar line search of scipy are arbitrary. Refuted: that every returned state satisfies the tolerance (when the passes are used up the last state is returned and only a message is printed; no caller looks at the residuals).
* C81. Exact reals; all processes have the same local size, as the tiles do. Assembly and blocks: proved. Refuted: matrices in coordinate form are saved with their rows in a tuple and cannot be read back; a set without matrices cannot be stored; the preconditioner takes the files of an earlier run for any operator, and when only some processes find a file the others wait for ever in the operator. numpy, scipy and pickle are modelled by what they store.
* C82. Exact reals. Proved on one process for all files but dcgs2 and on every number of processes for pmex, icwy_ne and cwy_ne (icwy_neiop: the basis of kiops with iop = 2). Refuted: the reduction counts the augmented entries once for each process, so that icwy_1s and the ne1s files give results depending on the number of processes, and pmex_1s, cwy_1s and kiops_nest lose the orthonormality; the 1s files divide by zero when the space is invariant; dcgs2 does not normalise its first vector. For basis vectors that are not orthogonal: the cwy files are the modified Gram-Schmidt process, the icwy files are up to second order, and pmex, pmex_1s and pmex_ne1s are not, the lower triangular system being solved as an upper one. The matrix exponential and the step control are those of C71 to C74.
* C83. Exact reals; energy, enstrophy and analytic depth are arbitrary fields. Refuted: the last step is shortened by changing config.dt, and the analytic depth is evaluated at the number of the step times that dt, which is too early; a run that is started again reports changes relative to its own first report.
* C87. Exact reals: sums over the processes do not depend on their order. Proved in full for pmex, kiops, EPI and SRERK; for newton_krylov and the implicit integrators with a given number of passes, and with the default number if solutions are announced before the smaller limit. For fgmres and ros2 the runs agree unless in one of them the processes get out of step, and C87_refuted shows that this happens: one process returns from the stagnation test of fgmres.py 260-266 while the other waits in the next allreduce. The preconditioner is any map that does the same on both decompositions. In EPI and SRERK the Jacobian is by finite differences. gcrot, which takes norms of the local entries only, is not covered.
* C90. Exact reals; points of gauss_legendre, at most five. The last sentence is false of the code: with xperiodic, rhs_bubble_convective takes the first column of elements for a copy of the last one, which it is not on the grid (C90_periodic_refuted); what it keeps is the mass of the other columns (C90_periodic).
* C91. Names of ASCII characters. The second sentence is false of the code: the partitioned methods never take a step (C91_partitioned), fv cannot be evaluated on the plane (C91_runs) and is ignored on the cubed sphere (C91_discretization). The constructors are modelled as far as they refuse an order; the test case is assumed to be one that starts (C77).
* C92. Holds for the EPI methods (C92_epi). False for epi_stiff, srerk and rosexp2 (C92_refuted, C92_schema_refuted, C92_stiff). The solvers are represented by the names of the functions that are called; their arguments are not part of this model.

## Trusted base

* The kernel of Coq 8.16.1, including its virtual machine (`vm_compute`, `vm_cast_no_check` in the checks of the
  Butcher tableaux, the quadrature rules and a few examples), and `coqchk`, which repeats these checks without it.
* The faithfulness of the model files to the source, definition by definition. No code was run.
* The libraries used for proofs (standard library, mathcomp, Coquelicot) are checked by the kernel and add no axioms
  beyond those below.
* No axiom, parameter or hypothesis outside a section is declared; no proof is admitted; no kernel check is disabled; no
  functor or module type is defined.

Axioms reported by `Print Assumptions`, with the letters used in the table below:

| letter | axiom | reason |
|----|----|----|
| F | `ClassicalDedekindReals.sig_forall_dec` | real numbers of the standard library |
| N | `ClassicalDedekindReals.sig_not_dec` | real numbers of the standard library |
| E | `FunctionalExtensionality.functional_extensionality_dep` | real numbers, equality of fields as functions |
| C | `Classical_Prop.classic` | analysis in the standard library and Coquelicot |
| S | `Epsilon.epsilon_statement` | mathcomp structures over R (choice) |
| P | primitive floats (`PrimFloat.float`, `add`, `sub`, `abs`, `ltb`, ...) | primitives of the kernel, not axioms about them |

| theorem | assumptions |
|----|----|
| `C01_accepted_counts`, `C01_suggested_counts`, `C01_small_suggestion_refuted` | EF |
| `C02_rank_tile_bijection` | EF |
| `C03_neighbour_graph` | EF |
| `C04_shared_edge` | EF |
| `C05_scalar_exchange`, `C05_scalar_exchange_3d` | EF |
| `C06_tangent_is_derivative` | CEFN |
| `C06_components_unique`, `C06_contravariant_conversion` | EFN |
| `C06_inside_panel` | EF |
| `C07_covariant_conversion_partial`, `C07_covariant_refuted` | EFN |
| `C08_contravariant_exchange`, `C08_covariant_exchange_partial`, `C08_covariant_exchange_refuted` | EFN |
| `C09_base_shape`, `C09_succeeds_iff`, `C09_documented_exception_refuted` | none |
| `C10_distribute_gather`, `C10_gather_distribute`, `C10_gathered_entry`, `C10_distribute_rejects`, `C10_gather_1d`, `C10_gather_1d_complete_refuted` | none |
| `C11_outcome_unique`, `C11_body_completes`, `C11_body_raises`, `C11_one_collective`, `C11_private_value_refuted`, `C11_do_once_returns`, `C11_do_once_raises`, `C11_do_once_sequence` | none |
| `C12_multiple_processes`, `C12_everybody_raises_refuted` | none |
| `C13_nan_check` | none |
| `C14_values_in_range`, `C14_read`, `C14_bad_default_rejected`, `C14_range_makes_sense` | none |
| `C15_meaning`, `C15_failure`, `C15_unique`, `C15_shipped_schema_resolved`, `C15_post_configuration`, `C15_post_configuration_first`, `C15_sections`, `C15_shipped_no_attribute_error`, `C15_accepted_options_suffice_refuted` | none |
| `C16_same_fields`, `C16_dependency_first`, `C16_dependencies_found`, `C16_chains_refuted` | none |
| `C17_value`, `C17_raises`, `C17_reason` | EFN |
| `C18_terminates`, `C18_24_bits`, `C18_encode_decode`, `C18_decode_encode`, `C18_decode_range`, `C18_idempotent`, `C18_periodic`, `C18_documented_interval_refuted` | EFN |
| `C18_float_terminates_refuted` | none |
| `C19_announced`, `C19_complete`, `C19_with_failures` | EF |
| `C19_states`, `C19_float_count_refuted`, `C19_zero_dt_refuted` | none |
| `C20_second_run_does_nothing` | EF |
| `C20_rerun_refuted` | none |
| `C21_restart` | EF |
| `C21_fallback`, `C21_float_restart_refuted`, `C21_multistep_restart_refuted` | none |
| `C22_output_schedule` | none |
| `C23_output_independent` | none |
| `C23_netcdf_no_topography`, `C23_netcdf_refuted` | EF |
| `C24_listed_counts_work`, `C24_exact`, `C24_others_refused`, `C24_all_listed_refuted` | none |
| `C25_names_differ`, `C25_read_back`, `C25_one_line`, `C25_text_refuted`, `C25_version_checked_refuted` | none |
| `C26_short_durations_partial`, `C26_long_durations_refuted`, `C26_integer_clock_refuted` | EF |
| `C27_one_id_per_run`, `C27_steps_in_order`, `C27_run_id_is_first_entry`, `C27_rows_refer_to_params`, `C27_calls_complete`, `C27_write_adds_a_row` | none |
| `C28_history`, `C28_any_dt`, `C28_drift_bound`, `C28_small_change_refuted`, `C28_epi_constructor`, `C28_epi_stiff_constructor`, `C28_affine` | EF |
| `C29_order_conditions`, `C29_epi_tables`, `C29_epi_tables_sharp`, `C29_supported_orders`, `C29_stiff_sign`, `C29_stiff_refuted`, `C29_stiff_low_orders` | none |
| `C30_tableaux`, `C30_trees`, `C30_trees_partial`, `C30_step`, `C30_step_decimal`, `C30_dp87_refuted`, `C30_m43_refuted` | EF |
| `C30_accepted`, `C30_names_refuted` | none |
| `C31_step`, `C31_terminates`, `C31_attempts`, `C31_first_stage_partial`, `C31_first_stage_refuted`, `C31_controllers` | CEFN |
| `C31_tuple_controller_refuted` | EF |
| `C32_euler`, `C32_tvdrk3`, `C32_tvdrk3_tableau`, `C32_crank_nicolson`, `C32_backward_euler`, `C32_imex2`, `C32_bdf2_partial`, `C32_bdf2_lag`, `C32_bdf2_start_refuted`, `C32_bdf2_change_refuted`, `C32_lie_calls`, `C32_strang_calls`, `C32_strang_one_step`, `C32_os22_calls`, `C32_lie_order`, `C32_strang_order`, `C32_os22_order` | EF |
| `C32_ros2`, `C32_rosexp2`, `C32_partrosexp2`, `C32_rosexp2_configured` | EFN |
| `C33_substeps`, `C33_basis`, `C33_progress`, `C33_outputs_partial`, `C33_outputs_refuted`, `C33_repeated_refuted`, `C33_zero_estimate_refuted` | CEFN |
| `C33_float_refuted` | P |
| `C34_system`, `C34_refuted`, `C34_partial` | CEFN |
| `C34_phi0_refuted` | none |
| `C35_flag`, `C35_zero_rhs`, `C35_givens` | EFN |
| `C36_finite_difference_affine`, `C36_complex_affine` | EFN |
| `C36_complex_polynomial`, `C36_complex_quadratic`, `C36_finite_difference_polynomial` | CEFN |
| `C37_pullback`, `C37_panel_area` | CEFN |
| `C37_inverse`, `C37_area_partial`, `C37_area_refuted` | EFN |
| `C38_levi_civita`, `C38_rotation`, `C38_coriolis` | CEFN |
| `C38_equal_sizes` | EFN |
| `C39_same_vector`, `C39_round_trip`, `C39_round_trip_back`, `C39_contra2wind_3d`, `C39_round_trip_3d_partial`, `C39_round_trip_3d_refuted` | CEFN |
| `C40_cover_once`, `C40_decomposition`, `C40_between` | EFN |
| `C40_on_sphere`, `C40_one_cube`, `C40_edges`, `C40_covered` | CEFN |
| `C41_to_elements_2d`, `C41_to_elements_2d_four`, `C41_to_block_2d`, `C41_to_block_cartesian`, `C41_to_elements_3d`, `C41_to_block_3d`, `C41_to_elements_floor`, `C41_round_trip_2d`, `C41_round_trip_2d_back`, `C41_round_trip_3d`, `C41_round_trip_3d_back`, `C41_bad_shapes_2d`, `C41_bad_shapes`, `C41_interfaces_i_2d`, `C41_interfaces_j_2d`, `C41_edges_i`, `C41_edges_j`, `C41_one_element_refuted`, `C41_interfaces_i_3d`, `C41_interfaces_j_3d`, `C41_interfaces_k_3d`, `C41_interfaces_i_floor`, `C41_interfaces_j_floor`, `C41_floor`, `C41_columns`, `C41_columns_k`, `C41_floor_interfaces`, `C41_columns_interfaces`, `C41_heights`, `C41_coordinates` | none |
| `C42_exact` | CEFN |
| `C42_points`, `C42_roots`, `C42_others` | EFN |
| `C43_row_reduce`, `C43_inverse`, `C43_singular` | none |
| `C44_interpolation`, `C44_sum`, `C44_derivative` | none |
| `C45_linear`, `C45_sum`, `C45_two`, `C45_convex`, `C45_one_point`, `C45_error` | none |
| `C46_shallow_water`, `C46_finite_volumes`, `C46_sphere`, `C46_ground`, `C46_lid` | EFN |
| `C46_plane_x1`, `C46_plane_x2`, `C46_plane_compiled_x1`, `C46_plane_compiled_x2` | CEFN |
| `C47_shallow_water`, `C47_finite_volumes`, `C47_sphere`, `C47_sphere_parts` | EFN |
| `C47_shallow_water_points`, `C47_upwind` | EF |
| `C47_plane_points`, `C47_plane_partial`, `C47_plane_refuted`, `C47_plane_python_x1_partial`, `C47_plane_python_x2_partial`, `C47_sphere_points`, `C47_sphere_parts_points` | CEFN |
| `C48_refuted`, `C48_sides_refuted`, `C48_partial` | none |
| `C49_levels_fv`, `C49_levels_dg`, `C49_parameters`, `C49_num_levels` | none |
| `C49_v_cycle`, `C49_visits` | EF |
| `C50_partial`, `C50_correction`, `C50_refuted` | CEFN |
| `C51_refuted`, `C51_assignment_partial`, `C51_loads`, `C51_no_device`, `C51_requested` | none |
| `C52_refuted`, `C52_growth_refuted`, `C52_update_partial`, `C52_size_partial` | EFN |
| `C53_time_stamps`, `C53_last_stamp_refuted` | EF |
| `C54_silent_failure_refuted`, `C54_later_calls_refuted`, `C54_finished` | CEFN |
| `C55_pullback` | CEFN |
| `C55_inverse`, `C55_interface_partial`, `C55_interface_refuted` | EF |
| `C55_volume` | EFN |
| `C55_interfaces`, `C55_interfaces_kept` | EFNS |
| `C56_rotation_partial`, `C56_rotation_refuted` | CEFN |
| `C57_system` | EF |
| `C57_exact` | CEFN |
| `C58_extrapolation`, `C58_correction`, `C58_extrap_x`, `C58_extrap_y`, `C58_extrap_z`, `C58_derivative_x`, `C58_derivative_y`, `C58_derivative_z`, `C58_extrap_2d`, `C58_derivative_x_2d`, `C58_derivative_y_2d` | none |
| `C59_modes`, `C59_low_degree`, `C59_factors`, `C59_factors_3d`, `C59_filter_3d`, `C59_high_filter`, `C59_high_filter_3d`, `C59_high_filter_3d_top`, `C59_remesh_partial`, `C59_remesh_half`, `C59_remesh_drop`, `C59_remesh_constant_refuted` | none |
| `C60_check`, `C60_passes`, `C60_passes_filtered` | none |
| `C61_points`, `C61_faces_x1`, `C61_faces_x2` | CEFN |
| `C62_shallow_water`, `C62_plane`, `C62_plane_momentum`, `C62_euler_sphere` | CEFNS |
| `C63_energy` | CEFN |
| `C63_positive` | EFN |
| `C63_enstrophy` | none |
| `C64_formula`, `C64_compiled` | EF |
| `C65_source`, `C65_points` | EFN |
| `C65_mass` | F |
| `C66_rest` | EFNS |
| `C67_rhs`, `C67_steps`, `C67_integral` | EFNS |
| `C68_monotone`, `C68_converged`, `C68_iterations`, `C68_refuted`, `C68_flag_refuted` | EFN |
| `C69_monotone`, `C69_optimal`, `C69_returns_partial`, `C69_refuted` | EFN |
| `C70_keeps`, `C70_linear`, `C70_error`, `C70_smoothers`, `C70_ark3_partial`, `C70_ark3_refuted` | EF |
| `C71_substeps`, `C71_basis`, `C71_outputs_partial`, `C71_control`, `C71_endless_refuted`, `C71_zero_estimate_refuted` | CEFN |
| `C72_krylov`, `C72_defect`, `C72_breakdown_refuted` | CEFN |
| `C73_kiops_counts`, `C73_pmex_counts`, `C73_kiops_added`, `C73_pmex_added`, `C73_kiops_error`, `C73_pmex_error`, `C73_pmex_size`, `C73_kiops_size_refuted` | CEFN |
| `C74_krylov_partial`, `C74_control` | CEFN |
| `C75_steady`, `C75_transport`, `C75_mountain`, `C75_wave`, `C75_depth` | CEFN |
| `C75_forcing` | EFN |
| `C76_hydrostatic`, `C76_wind`, `C76_gravity_wave`, `C76_advection`, `C76_tracers`, `C76_tracer_shapes`, `C76_acoustic`, `C76_plane_mountain`, `C76_bubble_core_partial`, `C76_bubble_pressure`, `C76_bubble_refuted` | CEFN |
| `C76_sponge` | EFN |
| `C77_starts_partial`, `C77_starts_refuted`, `C77_unknown`, `C77_unknown_plane_refuted` | none |
| `C78_nodes`, `C78_linear`, `C78_forced`, `C78_quadrature` | CEFNS |
| `C78_optimal` | EFNS |
| `C78_requested` | EF |
| `C79_found`, `C79_ends`, `C79_returned_refuted`, `C79_solution`, `C79_jacobian`, `C79_affine`, `C79_armijo`, `C79_search`, `C79_tolerances` | EFN |
| `C80_backward_euler`, `C80_sdirk`, `C80_sdirk_order`, `C80_crank_nicolson`, `C80_crank_nicolson_affine`, `C80_ros2`, `C80_imex2`, `C80_damping` | EFN |
| `C80_bdf2`, `C80_tvd` | EF |
| `C81_matrix`, `C81_local`, `C81_blocks`, `C81_inverse` | EF |
| `C81_columns`, `C81_processes`, `C81_stale_refuted`, `C81_restart_refuted` | F |
| `C81_archive`, `C81_coordinates_refuted`, `C81_sets`, `C81_empty_refuted` | none |
| `C82_basis_partial`, `C82_polynomials`, `C82_breakdown`, `C82_failure`, `C82_shapes`, `C82_same`, `C82_default`, `C82_incomplete_partial`, `C82_processes_refuted`, `C82_last_norm_refuted`, `C82_nest_refuted`, `C82_triangular_refuted`, `C82_rest_refuted`, `C82_rest`, `C82_dcgs2_first`, `C82_dcgs2_refuted` | EFN |
| `C82_sizes` | CEFN |
| `C82_compact`, `C82_inverse`, `C82_triangular` | EF |
| `C83_errors`, `C83_scale`, `C83_processes`, `C83_schedule`, `C83_changes`, `C83_conserved`, `C83_frequency`, `C83_time`, `C83_last_refuted`, `C83_restart`, `C83_restart_refuted` | EFN |
| `C84_slopes`, `C84_integral` | EFNS |
| `C84_terrain`, `C84_terrain_steps`, `C84_rhs`, `C84_steps` | CEFNS |
| `C85_rest`, `C85_mass` | CEFNS |
| `C85_symbols` | EFNS |
| `C86_levels` | EF |
| `C86_thickness`, `C86_slopes`, `C86_level`, `C86_metric`, `C86_between_layers`, `C86_side_thickness` | EFNS |
| `C87_fgmres`, `C87_one`, `C87_newton`, `C87_newton_default`, `C87_newton_one`, `C87_steps_one`, `C87_srerk_one`, `C87_refuted` | EFN |
| `C87_pmex`, `C87_kiops` | CEFN |
| `C87_shallow`, `C87_euler`, `C87_shallow_more`, `C87_euler_more` | CEFNS |
| `C88_sum`, `C88_depth` | EFNS |
| `C88_mass` | CEFNS |
| `C89_total` | CEFNS |
| `C89_linear`, `C89_upwind` | EFNS |
| `C90_implicit`, `C90_theta`, `C90_acoustic`, `C90_convective`, `C90_euler`, `C90_mean`, `C90_periodic`, `C90_periodic_refuted`, `C90_volumes` | CEFNS |
| `C90_volumes_uniform` | CEFN |
| `C91_create`, `C91_order`, `C91_refused`, `C91_runs`, `C91_partitioned`, `C91_partitioned_refuted`, `C91_discretization`, `C91_discretization_refuted` | none |
| `C92_epi`, `C92_srerk`, `C92_refused`, `C92_refuted`, `C92_schema_refuted`, `C92_stiff` | none |
