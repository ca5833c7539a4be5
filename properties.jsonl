{"id": "C01", "title": "Process count acceptance", "statement": "Creating a ProcessTopology on a communicator succeeds exactly when the number of processes is 6*k*k for some k >= 1; otherwise it raises ValueError, and for 6 or more processes the two counts it suggests are themselves acceptable and bracket the given count with no acceptable count strictly between them.", "quantifier": "every communicator size (unbounded natural number)", "why_tests_cant": "Tests run on a handful of sizes (6, 24, 54); the claim is an if-and-only-if over all sizes.", "anchors": ["wx_factory/process_topology.py:ProcessTopology.__init__"]}
{"id": "C02", "title": "Rank to tile location is a bijection", "statement": "Every rank of an accepted communicator is given a panel in 0..5 and a row and column inside the panel, no two ranks get the same (panel,row,col), and every (panel,row,col) is some rank's.", "quantifier": "every k >= 1 and every rank below 6*k*k", "why_tests_cant": "The mapping must be bijective for every number of tiles per side, not only for the few process counts a test can launch.", "anchors": ["wx_factory/process_topology.py:ProcessTopology.__init__.rank_from_location"]}
{"id": "C03", "title": "Neighbour graph is well formed and symmetric", "statement": "The four neighbours (sources/destinations) a tile declares are valid ranks, pairwise distinct and different from the tile itself, and if b is a neighbour of a through some side then a is a neighbour of b through exactly one side. Hence every send posted through the distributed graph has exactly one matching receive.", "quantifier": "every k >= 1, every rank, every side", "why_tests_cant": "An asymmetric entry for one corner tile at one process count deadlocks or corrupts the exchange; launching all process counts is impossible.", "anchors": ["wx_factory/process_topology.py:ProcessTopology.__init__", "wx_factory/process_topology.py:ProcessTopology.sources"]}
{"id": "C04", "title": "Neighbours are the tiles that share the physical edge", "statement": "Mapping each panel to its face of the cube, the neighbour a tile declares on a side is the tile whose facing side is the same segment of the cube surface; the declared flip flag says whether the two tiles traverse this segment in opposite directions.", "quantifier": "every k >= 1, every rank, every side, every point along the side", "why_tests_cant": "The tables for the 24 panel edges are hand written; a unit test with 6 processes never exercises row/column reversal for k > 1.", "anchors": ["wx_factory/process_topology.py:ProcessTopology.__init__.all_neighbors", "wx_factory/process_topology.py:ProcessTopology.__init__.edge_coords", "wx_factory/process_topology.py:ProcessTopology.__init__.flips"]}
{"id": "C05", "title": "Scalar halo exchange delivers the physically coincident values", "statement": "If every tile sends, on each side, the samples of one global field at its own boundary points, then after start_exchange_scalars(...).wait() every tile holds, on each side, samples of this field at its own boundary points in its own order: entry i received is the value the neighbour had at the same physical point.", "quantifier": "every process count 6*k*k, every number of points per side, every global field, every tile and side", "why_tests_cant": "Ordering errors only appear for particular panel pairs and tile positions; tests cover k = 1 with a few fields.", "anchors": ["wx_factory/process_topology.py:ProcessTopology.start_exchange_scalars", "wx_factory/process_topology.py:ExchangeRequest.wait"]}
{"id": "C06", "title": "Contravariant vectors are converted to the neighbour's basis", "statement": "The contravariant components sent across a panel edge describe, in the receiving panel's coordinate basis at the shared boundary point, the same tangent vector to the sphere as the local components did in the sending panel's basis.", "quantifier": "all 24 panel edges, every boundary coordinate, every pair of components", "why_tests_cant": "Tests compare the code with itself (they apply convert_contra of the neighbour); the claim is about all real coordinates and components.", "anchors": ["wx_factory/process_topology.py:ProcessTopology.__init__.convert_contras", "wx_factory/process_topology.py:ProcessTopology.start_exchange_vectors"]}
{"id": "C07", "title": "Covariant vectors are converted to the neighbour's basis", "statement": "The covariant components sent across a panel edge have the same pairing with every tangent vector as before conversion, i.e. they are the components of the same covector in the neighbour's basis.", "quantifier": "all 24 panel edges, every boundary coordinate, every pair of components", "why_tests_cant": "No test uses covariant=True on every edge; one wrong entry goes unnoticed.", "anchors": ["wx_factory/process_topology.py:ProcessTopology.__init__.convert_covs"]}
{"id": "C08", "title": "Vector halo exchange end to end", "statement": "If every tile sends the contravariant components (and optional third component) of one global tangent vector field at its own boundary points, every tile receives on every side the components of this same field in its own basis at its own boundary points.", "quantifier": "every process count 6*k*k, every symmetric set of boundary points, every global vector field", "why_tests_cant": "Combines table look-up, basis change and reordering for every panel pair and tile position.", "anchors": ["wx_factory/process_topology.py:ProcessTopology.start_exchange_vectors", "wx_factory/process_topology.py:ExchangeRequest"]}
{"id": "C09", "title": "Exchange shape computation", "statement": "get_base_shape returns a shape with the same number of entries as the input shape whose last dimensions are exactly the boundary shape and whose leading dimensions are a prefix of the input shape; it raises exactly when no trailing group of dimensions of the input (taken until the boundary length is reached) has the boundary length.", "quantifier": "every input shape with positive dimensions and every boundary shape", "why_tests_cant": "Shapes are unbounded tuples; tests use a few.", "anchors": ["wx_factory/process_topology.py:get_base_shape"]}
{"id": "C10", "title": "Gather and distribute are mutually inverse", "statement": "Distributing a gathered cube gives back each tile, gathering distributed tiles gives back the cube, and entry (row,col) of a gathered panel is the entry of the tile that owns this position.", "quantifier": "every k >= 1, every tile side, every element shape, every field content", "why_tests_cant": "Indexing must be right for all tile counts and sizes.", "anchors": ["wx_factory/process_topology.py:ProcessTopology.gather_cube", "wx_factory/process_topology.py:ProcessTopology.gather_tiles_to_panel", "wx_factory/process_topology.py:ProcessTopology.distribute_cube"]}
{"id": "C11", "title": "SingleProcess runs the body once and everybody agrees", "statement": "Inside `with SingleProcess(comm) as s, Conditional(s)`, the body is executed by the root rank only; if it completes, every rank leaves the context normally with return_value equal to the root's; if it raises, every rank raises. Every rank performs exactly one collective call, so nobody is left waiting.", "quantifier": "every communicator size, root rank, body outcome (value or any exception)", "why_tests_cant": "The outcome depends on the failing rank and on exception propagation across ranks; a test cannot enumerate bodies and sizes.", "anchors": ["wx_factory/wx_mpi.py:SingleProcess", "wx_factory/wx_mpi.py:Conditional", "wx_factory/wx_mpi.py:do_once"]}
{"id": "C12", "title": "MultipleProcesses reports failures collectively", "statement": "With MultipleProcesses(comm, n) and Conditional, exactly the ranks below n run the body (all of them when n <= 0), the outcome of the collective vote is the same on all ranks, exceptions are swallowed exactly when no active rank failed, and when some active rank failed all the ranks that have an exception in flight raise it.", "quantifier": "every communicator size, n, and every assignment of outcomes to ranks", "why_tests_cant": "Exponentially many outcome assignments.", "anchors": ["wx_factory/wx_mpi.py:MultipleProcesses", "wx_factory/wx_mpi.py:Conditional"]}
{"id": "C13", "title": "NaN detection stops all ranks together", "statement": "After a step, either every rank raises ValueError or none does; all raise exactly when at least one rank's state holds a NaN.", "quantifier": "every number of ranks and every state on every rank", "why_tests_cant": "Depends on which rank holds the NaN.", "anchors": ["wx_factory/simulation/simulation.py:Simulation._check_for_nan"]}
{"id": "C14", "title": "Accepted configuration values respect their declared range", "statement": "Every option set by reading a configuration file satisfies the min/max or selectable constraint of its field (element-wise for lists); a value outside raises instead of being stored; a field whose default violates its own range cannot be created.", "quantifier": "every schema, every configuration content", "why_tests_cant": "Ranges, lists, defaults and missing values combine arbitrarily.", "anchors": ["wx_factory/common/configuration_schema.py:ConfigFieldRange", "wx_factory/common/configuration_schema.py:ConfigurationField.read"]}
{"id": "C15", "title": "Defaults, missing options and dependencies", "statement": "An option absent from the file takes its declared default, and reading fails when there is no default; an option present in the file never silently takes the default; a field whose dependency is unsatisfied leaves the configuration unchanged; with mutually exclusive duplicates the value comes from the one active field.", "quantifier": "every schema, every configuration content", "why_tests_cant": "Depends on presence pattern and dependency values of all options.", "anchors": ["wx_factory/common/configuration.py:Configuration._get_option", "wx_factory/common/configuration_schema.py:ConfigurationField.read", "wx_factory/common/configuration_schema.py:sort_fields_by_dependency"]}
{"id": "C16", "title": "Dependency ordering", "statement": "Sorting a schema's fields keeps every field exactly once and places each field after the field it depends on, so reading never fails because a dependency has not been read yet (for dependencies on fields that exist and have no dependency of their own).", "quantifier": "every list of fields", "why_tests_cant": "Order of fields in the JSON schema is arbitrary.", "anchors": ["wx_factory/common/configuration_schema.py:sort_fields_by_dependency"]}
{"id": "C17", "title": "Expression evaluation is confined to arithmetic", "statement": "eval_expr returns the mathematical value of an expression built from numbers, pi, + - * / and unary minus, and raises for every expression containing any other construct that gets evaluated; it has no other effect.", "quantifier": "every expression tree", "why_tests_cant": "Trees are unbounded.", "anchors": ["wx_factory/common/eval_expr.py:eval_expr"]}
{"id": "C18", "title": "angle24 codec", "statement": "Encoding always yields a 24-bit integer; decode followed by encode is the identity on 24-bit integers; encode followed by decode changes an angle by at most half a quantum modulo 2*pi; decoding yields angles in [-pi, pi); quantising twice equals quantising once.", "quantifier": "every real angle, every integer", "why_tests_cant": "2^24 codes and a continuum of angles.", "anchors": ["wx_factory/common/angle24.py:encode", "wx_factory/common/angle24.py:decode", "wx_factory/common/angle24.py:angle24"]}
{"id": "C19", "title": "Time stepping reaches t_end exactly and in the announced number of steps", "statement": "Simulation.run advances the time by dt per step, shortens only the last step so that the final time is exactly t_end, never exceeds t_end, performs exactly the announced num_steps steps when the integrator does not fail, and stops after the first failing step.", "quantifier": "every t_end, dt > 0, starting step, integrator behaviour", "why_tests_cant": "Unbounded number of steps and arbitrary ratio t_end/dt.", "anchors": ["wx_factory/simulation/simulation.py:Simulation.step", "wx_factory/simulation/simulation.py:Simulation.run", "wx_factory/simulation/simulation.py:Simulation.__init__"]}
{"id": "C20", "title": "Running a simulation again reproduces it", "statement": "run() resets the simulation, so that calling run() a second time performs the same steps again from the initial state.", "quantifier": "every simulation", "why_tests_cant": "History property over two consecutive runs.", "anchors": ["wx_factory/simulation/simulation.py:Simulation.run"]}
{"id": "C21", "title": "Restarting from a saved step continues the same trajectory", "statement": "Starting a simulation from the state saved at step s yields, for every later step, the same state, time and step number as the original uninterrupted run.", "quantifier": "every restart step, every number of later steps, every memoryless integrator (and is it so for multistep integrators)", "why_tests_cant": "Crash/restart point is arbitrary.", "anchors": ["wx_factory/simulation/simulation.py:Simulation._determine_starting_state", "wx_factory/output/output_manager.py:OutputManager.load_state_from_file"]}
{"id": "C22", "title": "Output, state saving and block statistics happen at the requested steps", "statement": "For each of output_freq, save_state_freq and stat_freq: the action is performed exactly at the steps, from the starting step on, that are multiples of the frequency, never when the frequency is <= 0, and the counters equal the number of times.", "quantifier": "every frequency, starting step, number of steps", "why_tests_cant": "Arbitrary combinations of frequencies.", "anchors": ["wx_factory/output/output_manager.py:OutputManager.step"]}
{"id": "C23", "title": "Writing output does not change the simulation", "statement": "The trajectory of the model state is the same whatever the output options are: performing output leaves the prognostic state unchanged.", "quantifier": "every state, topography, output frequency, number of steps", "why_tests_cant": "Aliasing between the written array and the state is a history property.", "anchors": ["wx_factory/output/output_cubesphere_netcdf.py:OutputCubesphereNetcdf.__write_result__", "wx_factory/simulation/simulation.py:Simulation.step"]}
{"id": "C24", "title": "Allowed process counts", "statement": "Every process count listed by the simulation is accepted by the process topology and divides the elements evenly between tiles; and every count that does both is listed.", "quantifier": "every number of elements per panel side", "why_tests_cant": "Quantifies over all sizes.", "anchors": ["wx_factory/simulation/simulation.py:Simulation.__init__", "wx_factory/simulation/simulation.py:Simulation._adjust_num_elements"]}
{"id": "C25", "title": "State files of different steps do not collide and can be read back", "statement": "State file names of different step numbers (and of different configuration hashes) differ; the state and configuration text written to a state file are recovered by load_state.", "quantifier": "every step number, hash, state, configuration text", "why_tests_cant": "Unbounded step numbers and texts.", "anchors": ["wx_factory/output/output_manager.py:OutputManager.state_file_name", "wx_factory/output/state.py:save_state", "wx_factory/output/state.py:load_state"]}
{"id": "C26", "title": "Final report can always be printed", "statement": "Formatting of accumulated durations never fails, whatever the duration.", "quantifier": "every non-negative duration", "why_tests_cant": "A long run is needed to reach the failing branch.", "anchors": ["wx_factory/output/output_manager.py:_readable_time"]}
{"id": "C27", "title": "Solver statistics rows are keyed consistently", "statement": "All rows written by one run carry the same run_id, which differs from the run_id of every other run in the database; step ids are 0,1,2,... in the order of writing; every data row refers to an existing parameter row.", "quantifier": "every sequence of writes by any number of runs sharing the database", "why_tests_cant": "History property over interleaved runs.", "anchors": ["wx_factory/output/solver_stats.py:SolverStatsOutput._exec_write_output"]}
{"id": "C28", "title": "EPI history", "statement": "A multistep exponential integrator uses, at each step, exactly the last states and right-hand sides obtained with the current time-step size, in reverse chronological order, and uses its start-up method while fewer are available; a change of dt discards the history.", "quantifier": "every sequence of steps and dt values", "why_tests_cant": "History property over unbounded sequences.", "anchors": ["wx_factory/integrators/epi.py:Epi.__step__"]}
{"id": "C29", "title": "Order conditions of the computed EPI coefficients", "statement": "The coefficient matrix computed from distinct non-zero nodes c solves the order conditions: sum_i alpha[k,i]*c_i^(l+2) = (k+2)! if k = l, else 0.", "quantifier": "every number of nodes, all distinct non-zero nodes", "why_tests_cant": "Arbitrary order and nodes.", "anchors": ["wx_factory/integrators/integrator.py:alpha_coeff", "wx_factory/integrators/epi.py:Epi.__init__", "wx_factory/integrators/epi_stiff.py:EpiStiff.__init__"]}
{"id": "C30", "title": "Butcher tableaux are consistent", "statement": "Every explicit Runge-Kutta tableau offered satisfies the row-sum condition, is strictly lower triangular, has weights that sum to one, embedded weights consistent with the error estimator, and the order conditions of its declared order (as far as the decimal data are exact); every method that can be selected can be used.", "quantifier": "all tableaux, all rows, all rooted trees up to the order", "why_tests_cant": "Numerical convergence tests only sample problems.", "anchors": ["wx_factory/integrators/butcher.py"]}
{"id": "C31", "title": "Adaptive Runge-Kutta step size control", "statement": "Every accepted step has an error estimate below 1; the step after a rejected attempt is strictly smaller; the solver never steps past the end time and ends exactly there; it stops with a failure when the step becomes smaller than representable.", "quantifier": "every right-hand side (error sequence), tolerance, initial step", "why_tests_cant": "Depends on arbitrary error sequences.", "anchors": ["wx_factory/integrators/explicit_runge_kutta.py:RungeKutta._step_impl"]}
{"id": "C32", "title": "Operator splitting and explicit integrators cover exactly one step", "statement": "Lie and Strang splitting advance each sub-integrator by a total of exactly dt per step; TVD-RK3, Euler, IMEX, Rosenbrock steps applied to a linear autonomous problem reproduce the stated order of the exponential series.", "quantifier": "every dt, every linear operator", "why_tests_cant": "Order is an asymptotic statement.", "anchors": ["wx_factory/integrators/splitting.py", "wx_factory/integrators/tvdrk3.py", "wx_factory/integrators/euler1.py"]}
{"id": "C33", "title": "KIOPS time-step and basis-size controller", "statement": "Internal substeps are positive, never pass the final output time, their sum is exactly the final time, each requested output time is produced exactly once and in order, and the basis size stays within [mmin, mmax].", "quantifier": "every error-estimate sequence, every list of output times, every tolerance", "why_tests_cant": "Controller history depends on arbitrary error estimates.", "anchors": ["wx_factory/solvers/kiops.py:kiops"]}
{"id": "C34", "title": "KIOPS restart of the augmented system", "statement": "When a substep starts at tau_now > 0 the augmented part of the first basis vector holds the values tau_now^i/i! that make the augmented linear system reproduce sum phi_k contributions.", "quantifier": "every p and tau_now", "why_tests_cant": "Only visible for p >= 2 and several substeps.", "anchors": ["wx_factory/solvers/kiops.py:kiops", "wx_factory/solvers/pmex.py:pmex"]}
{"id": "C35", "title": "FGMRES control flow", "statement": "fgmres returns flag 0 only when the tolerance is met, never performs more than the permitted number of iterations, returns immediately for a zero right-hand side, and its Givens rotations are orthogonal and annihilate the sub-diagonal.", "quantifier": "every operator (residual sequence), restart length, iteration limit", "why_tests_cant": "Arbitrary residual histories.", "anchors": ["wx_factory/solvers/fgmres.py:fgmres"]}
{"id": "C36", "title": "Jacobian-vector products", "statement": "For an affine right-hand side the finite-difference product equals the exact product and is linear; for the complex-step variant the result is the exact derivative for polynomials up to the stated truncation.", "quantifier": "every vector, state, dt", "why_tests_cant": "Continuum of inputs.", "anchors": ["wx_factory/solvers/matvec.py"]}
{"id": "C37", "title": "Metric tensors are mutually inverse", "statement": "At every point the contravariant and covariant metric tensors of the cubed sphere are inverse to each other, positive definite, and the declared area element is the square root of the determinant of the covariant metric.", "quantifier": "every pair of panel coordinates and radius > 0", "why_tests_cant": "Continuum of points.", "anchors": ["wx_factory/geometry/metric2d.py:Metric2D"]}
{"id": "C38", "title": "Christoffel symbols derive from the metric", "statement": "The Christoffel symbols stored for the two-dimensional grid are those of the stored metric, the symbols with a time index are those of the rotation of the planet, and the Coriolis parameter is twice the rotation rate times the sine of the latitude.", "quantifier": "every point", "why_tests_cant": "Identity between functions.", "anchors": ["wx_factory/geometry/metric2d.py:Metric2D"]}
{"id": "C39", "title": "Wind conversions are mutually inverse", "statement": "Converting (u,v) to contravariant components and back is the identity, and vice versa, at every non-singular point; the contravariant vector represents the same tangent vector. This holds in two dimensions and in three dimensions over any topography.", "quantifier": "every point, wind, panel rotation", "why_tests_cant": "Continuum of points.", "anchors": ["wx_factory/geometry/winds.py", "wx_factory/geometry/cubed_sphere_2d.py:CubedSphere2D.wind2contra", "wx_factory/geometry/cubed_sphere_2d.py:CubedSphere2D.contra2wind"]}
{"id": "C40", "title": "Tiles and panels cover the sphere without gap", "statement": "The angular domains of the tiles of a panel partition [-pi/4, pi/4]^2; the grid points map onto the sphere of the given radius; edges of adjacent panels coincide.", "quantifier": "every process count and element count", "why_tests_cant": "All sizes and points.", "anchors": ["wx_factory/geometry/cubed_sphere_2d.py:CubedSphere2D.__init__", "wx_factory/geometry/cubed_sphere_2d.py:CubedSphere2D.to_cartesian"]}
{"id": "C41", "title": "Memory-layout conversions are permutations", "statement": "Converting a block field to element layout and back is the identity, each grid point's value goes to the element and solution point that owns it, and interface conversions give both sides of an interface the same value.", "quantifier": "every number of elements and solution points", "why_tests_cant": "All sizes.", "anchors": ["wx_factory/geometry/cubed_sphere_2d.py:CubedSphere2D._to_new", "wx_factory/geometry/cubed_sphere_2d.py:CubedSphere2D.to_single_block", "wx_factory/geometry/cartesian_2d_mesh.py:Cartesian2D.to_single_block"]}
{"id": "C42", "title": "Gauss-Legendre quadrature exactness", "statement": "The explicit n-point rule (n <= 5) integrates every polynomial of degree at most 2n-1 over [-1,1] exactly, with points symmetric and inside the interval and positive weights.", "quantifier": "every polynomial of degree <= 2n-1", "why_tests_cant": "Continuum of polynomials.", "anchors": ["wx_factory/geometry/quadrature.py:gauss_legendre"]}
{"id": "C43", "title": "Exact matrix inversion", "statement": "row_reduce returns a reduced matrix row-equivalent to the input; inv returns the inverse of every invertible matrix and fails on singular ones.", "quantifier": "every square matrix of every size", "why_tests_cant": "All sizes and entries.", "anchors": ["wx_factory/geometry/operators.py:row_reduce", "wx_factory/geometry/operators.py:inv"]}
{"id": "C44", "title": "Lagrange interpolation and differentiation operators", "statement": "lagrange_eval reproduces polynomials of degree < n at any point, its weights sum to one; diffmat differentiates polynomials of degree < n exactly at the nodes.", "quantifier": "every set of distinct nodes, every polynomial", "why_tests_cant": "Continuum.", "anchors": ["wx_factory/geometry/operators.py:lagrange_eval", "wx_factory/geometry/operators.py:diffmat"]}
{"id": "C45", "title": "Linear interpolation weights", "statement": "get_linear_weights yields for every target point weights that sum to one, have at most two non-zero entries and reproduce linear functions exactly.", "quantifier": "every sorted list of at least two points, every target", "why_tests_cant": "All lists.", "anchors": ["wx_factory/common/interpolation.py:get_linear_weights"]}
{"id": "C46", "title": "Numerical fluxes are single valued at interfaces (conservation)", "statement": "The flux assigned to the two elements that share an interface is the same, so interior contributions cancel in the global sum.", "quantifier": "every number of elements, every state", "why_tests_cant": "All sizes and states.", "anchors": ["wx_factory/rhs/rhs_sw.py", "wx_factory/rhs/rhs_bubble.py", "wx_factory/pde/fluxes.py", "wx_factory/pde/interface.cpp:riemann_eulercartesian_ausm_2d"]}
{"id": "C47", "title": "Numerical fluxes are consistent", "statement": "When the states on both sides of an interface coincide the numerical flux equals the physical flux.", "quantifier": "every admissible state", "why_tests_cant": "Continuum of states.", "anchors": ["wx_factory/pde/kernels/riemann_flux.hpp", "wx_factory/pde/kernels/pointwise_flux.hpp", "wx_factory/rhs/rhs_sw.py", "wx_factory/rhs/rhs_bubble.py", "wx_factory/pde/fluxes.py"]}
{"id": "C48", "title": "Vorticity diagnostic", "statement": "relative_vorticity returns (d u_2/dx1 - d u_1/dx2)/sqrtG where u_i are the covariant components.", "quantifier": "every wind field", "why_tests_cant": "Continuum of fields.", "anchors": ["wx_factory/output/diagnostic.py:relative_vorticity"]}
{"id": "C49", "title": "Multigrid cycle", "statement": "The level sizes derived from the configuration are decreasing, positive and consistent between adjacent levels; one application of the cycle visits the levels in the V (or W) pattern, always returning to the finest level, with the requested number of pre- and post-smoothing steps per visit.", "quantifier": "every number of levels, W-cycles and smoothing counts", "why_tests_cant": "Unbounded recursion.", "anchors": ["wx_factory/precondition/multigrid.py:Multigrid"]}
{"id": "C50", "title": "Exponential smoother never increases the residual", "statement": "The vector returned by the exponential smoother has a residual norm not larger than that of the initial guess.", "quantifier": "every operator, right-hand side, initial guess, Krylov outcome", "why_tests_cant": "Arbitrary operators.", "anchors": ["wx_factory/precondition/smoother.py:ExponentialSmoother"]}
{"id": "C51", "title": "Device assignment", "statement": "On a machine with d devices, every rank gets a device in the requested list restricted to existing ones (all devices when this list is empty), ranks are spread in round robin so that loads differ by at most one, and an error is raised when no device exists.", "quantifier": "every rank, number of devices, requested list", "why_tests_cant": "All combinations.", "anchors": ["wx_factory/device/device.py:CudaDevice"]}
{"id": "C52", "title": "GCROT recycled space stays bounded", "statement": "The number of recycled vector pairs never exceeds the configured bound, oldest pairs being dropped first.", "quantifier": "every sequence of solves", "why_tests_cant": "History property.", "anchors": ["wx_factory/solvers/gcrot.py:gcrot"]}
{"id": "C53", "title": "Time coordinate of dynamic output", "statement": "In the netCDF output of a simulation, the time coordinate of the record written at a step is the model time of the state it holds: step number times the configured time step for every step that is not shortened, and the end time for the last, shortened one.", "quantifier": "for every time step, end time, starting step, output frequency and integrator, and every record written", "why_tests_cant": "The last step is shortened only for some pairs of end time and time step; whichever pair a test uses, the others remain open.", "anchors": ["wx_factory/output/output_cubesphere_netcdf.py:__write_result__", "wx_factory/simulation/simulation.py:Simulation.step"]}
{"id": "C54", "title": "Exponential solver based on Runge-Kutta reports failure", "statement": "The exponential solver built on an adaptive Runge-Kutta method returns the value at the end of the interval of the integrated problem or reports that the integration failed, and a failed call does not change the outcome of later calls.", "quantifier": "every matrix, right-hand sides, interval, tolerance and history of calls", "why_tests_cant": "A failure only occurs for some operators, and its influence on later calls depends on the history.", "anchors": ["wx_factory/solvers/exode.py:exode", "wx_factory/integrators/explicit_runge_kutta.py:RungeKutta"]}
{"id": "C55", "title": "Three-dimensional metric over topography", "statement": "At every point of the three-dimensional grid, with any topography and a deep atmosphere, the covariant metric holds the scalar products of the tangent vectors of the grid lines, the contravariant metric is its inverse, and the volume element is the square root of its determinant; slopes of the grid that agree on both sides of an element interface are kept by the averaging at the interface.", "quantifier": "every point, panel rotation, topography and vertical coordinate, element size", "why_tests_cant": "Continuum of points and arbitrary topography.", "anchors": ["wx_factory/geometry/metric3d.py:Metric3DTopo"]}
{"id": "C56", "title": "Rotation terms of the three-dimensional equations", "statement": "The stored symbols with one time index are those of a rotating planet: applied to a velocity they give the cross product of the angular velocity vector with it, in the coordinates of the grid.", "quantifier": "every point, velocity, rotation rate, panel rotation and topography", "why_tests_cant": "Continuum of points and arbitrary topography.", "anchors": ["wx_factory/geometry/metric3d.py:Metric3DTopo"]}
{"id": "C57", "title": "Spatial Christoffel symbols of the three-dimensional grid", "statement": "The linear system that defines the spatial symbols has at most one solution, which is symmetric in its lower indices and keeps a fluid at rest with constant pressure at rest, whatever the numerical derivatives on its right-hand side; with exact derivatives the solution is the Levi-Civita connection of the metric.", "quantifier": "every invertible metric, right-hand side and point", "why_tests_cant": "Arbitrary metrics and derivatives.", "anchors": ["wx_factory/geometry/metric3d.py:Metric3DTopo"]}
{"id": "C58", "title": "Extrapolation, derivative and correction operators", "statement": "Extrapolation of an element field to its faces gives the values of the polynomial through the solution points; derivative plus correction with values at the faces gives the derivative of the polynomial through the solution points and these values; in two and three dimensions each operator works along its own axis and leaves the values at the place of the face or point it belongs to.", "quantifier": "every number of points, every set of distinct points strictly inside the element, every field", "why_tests_cant": "All orders and all fields.", "anchors": ["wx_factory/geometry/operators.py:DFROperators"]}
{"id": "C59", "title": "Filters and changes of order act on modes", "statement": "Each filter multiplies the Legendre modes of an element by its factors (one up to the cutoff, exp(-alpha) for the highest mode), so polynomials of low degree are kept; the vertical filter of the gravity term removes only the highest mode; changing the order of a field keeps polynomials that both orders can hold, in particular constants.", "quantifier": "every set of distinct points, every order, cutoff and strength, every field", "why_tests_cant": "All orders and all fields.", "anchors": ["wx_factory/geometry/operators.py:filter_exponential", "wx_factory/geometry/operators.py:remesh_operator", "wx_factory/geometry/operators.py:DFROperators.make_filter"]}
{"id": "C60", "title": "Check of the differentiation matrix", "statement": "The check run when the operators are created accepts exactly the skew-centrosymmetric matrices, and never rejects the differentiation matrix of symmetric points, with or without filter.", "quantifier": "every matrix of every size, every set of symmetric points", "why_tests_cant": "All sizes.", "anchors": ["wx_factory/geometry/operators.py:check_skewcentrosymmetry"]}
{"id": "C61", "title": "Compiled and Python fluxes agree (Euler on a plane)", "statement": "The compiled routines for the fluxes at the points and at the interfaces give the same numbers as the Python versions, whatever the output arrays held before.", "quantifier": "every grid size, number of points per element, state and previous content of the output arrays", "why_tests_cant": "All sizes and states; address arithmetic over unbounded grids.", "anchors": ["wx_factory/pde/interface.cpp:pointwise_eulercartesian_2d", "wx_factory/pde/interface.cpp:riemann_eulercartesian_ausm_2d", "wx_factory/rhs/rhs_bubble.py:RhsBubble"]}
{"id": "C64", "title": "Forcing of the Euler equations on the cubed sphere", "statement": "The metric, Coriolis and pressure forcing of each momentum component is 2 rho Gamma^a_0j u^j + Gamma^a_ij (rho u^i u^j + H^ij p), and the compiled version equals the Python version.", "quantifier": "every state, metric and Christoffel symbols, every point of every array", "why_tests_cant": "Continuum of states and metrics.", "anchors": ["wx_factory/pde/pde_euler_cubesphere.py:PDEEulerCubesphere.forcing_terms"]}
{"id": "C62", "title": "Conservation by the space discretisation", "statement": "The space discretisation neither creates nor destroys mass. Shallow water: the tendency of the depth, integrated over the whole sphere as the code integrates, over all processes, is zero for any state (with topography when the interface values of it are those of one surface). Euler on a plane: the same for mass and potential temperature, and momentum changes only by the pressure on the walls and by gravity. Euler on the cubed sphere: the same for mass and potential temperature, over all processes, with any layers, terrain, forcing of the momentum, deep or shallow.", "quantifier": "every number of processes, elements, order up to five points, every state and topography", "why_tests_cant": "All grid sizes, process counts and states; a test sums a few floats of a few states.", "anchors": ["wx_factory/rhs/rhs_sw.py:RhsShallowWater", "wx_factory/rhs/rhs_bubble.py:RhsBubble", "wx_factory/output/diagnostic.py:global_integral_2d", "wx_factory/rhs/rhs_dfr.py:RHSDirecFluxReconstruction_mpi", "wx_factory/pde/pde_euler_cubesphere.py:PDEEulerCubesphere.riemann_fluxes", "wx_factory/geometry/metric3d.py:Metric3DTopo.build_metric"]}
{"id": "C65", "title": "Source terms of the shallow water equations", "statement": "The source of the contravariant momentum is the full covariant one: 2 Gamma^a_0j h u^j + Gamma^a_ij (h u^i u^j + H^ij g h^2/2) + g h H^aj dz/dx^j; the terms the code leaves out vanish. The depth has no source.", "quantifier": "every tile of every grid, state, rotation and topography", "why_tests_cant": "Continuum of points and states.", "anchors": ["wx_factory/rhs/rhs_sw.py:RhsShallowWater"]}
{"id": "C66", "title": "Still fluid keeps its depth", "statement": "When the wind is zero everywhere the tendency of the depth is zero at every point, for any depth field (continuous or not) and any topography.", "quantifier": "every number of processes, grid size, order, depth field and topography", "why_tests_cant": "All grid sizes and depth fields.", "anchors": ["wx_factory/rhs/rhs_sw.py:RhsShallowWater"]}
{"id": "C63", "title": "Energy and enstrophy diagnostics", "statement": "total_energy is half the depth times the square of the wind speed plus g times the integral of the height from the ground to the free surface; it is never negative and vanishes only where there is no fluid. Potential vorticity times depth is the absolute vorticity and the potential enstrophy is half the depth times the square of the potential vorticity.", "quantifier": "every point of every panel and tile, every wind, depth and topography", "why_tests_cant": "Continuum of points and states.", "anchors": ["wx_factory/output/diagnostic.py:total_energy", "wx_factory/output/diagnostic.py:potential_enstrophy", "wx_factory/output/diagnostic.py:potential_vorticity"]}
{"id": "C67", "title": "The number of processes does not change the results of the shallow water model", "statement": "For a given state, topography and rotation of the cubed sphere, the right-hand side of the shallow water equations computed by 6 k^2 processes, each holding one of the k x k tiles of a panel and exchanging halos, is at every point the one computed by 6 processes holding whole panels; hence so is the state after any number of steps of the explicit integrators with a given step, and so are the global integrals written to the statistics. (Exact arithmetic.)", "quantifier": "every number of tiles per panel, elements per tile and points per element, every state, topography, rotation, step size and number of steps", "why_tests_cant": "Tests run on a few process counts with a few states and compare to a tolerance; the claim is about every decomposition, every halo and every state.", "anchors": ["wx_factory/rhs/rhs_sw.py:RhsShallowWater", "wx_factory/process_topology.py:ProcessTopology", "wx_factory/geometry/cubed_sphere_2d.py:CubedSphere2D", "wx_factory/output/diagnostic.py:global_integral_2d", "wx_factory/integrators/tvdrk3.py:Tvdrk3", "wx_factory/integrators/euler1.py:Euler1"]}
{"id": "C68", "title": "GCROT does not make the solution worse and tells whether it converged", "statement": "For a linear operator, gcrot returns a vector whose residual is not larger than that of the initial guess, whatever the preconditioner, the inner iterations and the recycled pairs; the residual it reports is not smaller than the true one, equals the true one when it is within the tolerance, and the status it returns tells whether the tolerance was met.", "quantifier": "every vector space, operator, preconditioner, right-hand side, initial guess, number of inner iterations, sequence of solves", "why_tests_cant": "Arbitrary operators, histories of solves and outcomes of the inner iterations.", "anchors": ["wx_factory/solvers/gcrot.py:gcrot", "wx_factory/solvers/gcrot.py:_fgmres"]}
{"id": "C69", "title": "FGMRES minimises the residual and never makes it worse", "statement": "For a linear operator, fgmres returns a vector whose residual is not larger than that of the initial guess; one cycle with a linear preconditioner gives the smallest residual of the preconditioned Krylov space, and stops early only when the tolerance is met; it never fails on an injective operator.", "quantifier": "every vector space, scalar product, linear operator, preconditioner, right-hand side, initial guess, restart length, iteration limit", "why_tests_cant": "Arbitrary operators and dimensions; optimality compares with every vector of a subspace.", "anchors": ["wx_factory/solvers/fgmres.py:fgmres", "wx_factory/solvers/fgmres.py:_ortho_1_sync_igs"]}
{"id": "C70", "title": "A multigrid pass is a consistent linear iteration", "statement": "A pass of the multigrid preconditioner with linear operators, transfers and smoothers leaves a solution of the finest system unchanged, is a linear function of the right-hand side and of the initial guess (no guess being a zero guess), and multiplies the error by an operator that does not depend on the right-hand side; the Runge-Kutta smoothers offered (erk1, erk3, ark3) leave solutions of the system they smooth unchanged.", "quantifier": "every number of levels, spaces, operators, transfers, smoothing counts, passes per level, right-hand side and guess", "why_tests_cant": "Arbitrary operators and unbounded recursion; linearity relates all pairs of inputs.", "anchors": ["wx_factory/precondition/multigrid.py:Multigrid.iterate", "wx_factory/precondition/smoother.py:RK1Smoother", "wx_factory/precondition/smoother.py:RK3Smoother", "wx_factory/precondition/smoother.py:ARK3Smoother"]}
{"id": "C71", "title": "The default solver for phi functions advances exactly to the last output time", "statement": "pmex divides the interval up to the last output time into positive substeps that end exactly at that time; the size of the Krylov basis stays between the given bounds; row k of the result is evaluated at output time k; the loop ends and does not raise.", "quantifier": "every list of output times, tolerance and size bounds, every operator and vectors, every outcome of the linear algebra in every pass", "why_tests_cant": "The sequence of accepted and rejected passes depends on the data and is unbounded; tests follow a few of them.", "anchors": ["wx_factory/solvers/pmex.py:pmex"]}
{"id": "C72", "title": "The default solver for phi functions returns the Krylov approximation of the augmented exponential", "statement": "Every accepted substep of pmex multiplies the state by the exponential of the augmented operator, compressed to an orthonormal Krylov basis that reproduces all polynomials of the operator of degree below the size of the basis; when the basis is exhausted (the error is reported as zero) the result is the one with the whole operator.", "quantifier": "every vector space, scalar product, linear operator, vectors u_0 ... u_p, output times, tolerance, basis size, sequence of accepted and rejected passes", "why_tests_cant": "Arbitrary operators, dimensions and histories; the exponential is a limit.", "anchors": ["wx_factory/solvers/pmex.py:pmex"]}
{"id": "C73", "title": "The statistics of the solvers for phi functions describe the run", "statement": "The statistics returned by kiops and pmex are the number of substeps, of rejected passes, of Krylov vectors and of matrix exponentials that were made, the sum of the error estimates of the accepted passes and the size of the Krylov basis of the last substep.", "quantifier": "every input and every sequence of accepted and rejected passes", "why_tests_cant": "Counters over unbounded data-dependent histories.", "anchors": ["wx_factory/solvers/kiops.py:kiops", "wx_factory/solvers/pmex.py:pmex"]}
{"id": "C74", "title": "kiops returns the incomplete Krylov approximation of the augmented exponential", "statement": "In every substep of kiops the vectors made are orthonormal as far as they are at most iop positions apart and satisfy the Arnoldi relation with a banded matrix, up to a remainder of the last product. The result is the vector b V exp(t H) e_1: it reproduces every polynomial of the augmented operator of degree below the number of vectors, all polynomials if the remainder is zero, and satisfies the differential equation of the exponential up to a multiple of the remainder. The error estimate is the integral of that multiple over the substep. After a breakdown the remainder is below the tolerance.", "quantifier": "every linear operator, scalar product, list of vectors, orthogonalisation length, tolerance, sequence of passes and every function that computes matrix exponentials", "why_tests_cant": "tests compare a few problems with reference values; the relation must hold for every operator and for bases that are carried from one pass to the next", "anchors": ["wx_factory/solvers/kiops.py:kiops"]}
{"id": "C75", "title": "The shallow water test cases start from the balanced states they are named after", "statement": "The initial state of the zonal flows (cases 2 and 10) is an exact steady state of the equations that the right hand side discretises: on every panel, for every rotation of the grid, the divergence of the fluxes and the forcing cancel in all three equations. In case 1 the height that the output compares with is the initial bell carried by the initial wind. In case 5 the ground is a cone and the surface balances the wind. In case 6 the wind has no divergence and the height balances it. On the earth the initial depth is positive everywhere.", "quantifier": "every point of every element of every panel off the axis of rotation, every rotation of the grid, radius, speed of rotation, time, longitude and latitude", "why_tests_cant": "a test evaluates the state at the points of one grid and sees the balance only up to the error of the discretisation", "anchors": ["wx_factory/init/initialize.py:initialize_sw", "wx_factory/init/shallow_water_test.py:solid_body_rotation", "wx_factory/init/shallow_water_test.py:height_case1", "wx_factory/init/shallow_water_test.py:height_case2", "wx_factory/init/shallow_water_test.py:williamson_case5", "wx_factory/init/shallow_water_test.py:williamson_case6", "wx_factory/init/shallow_water_test.py:case_unsteady_zonal", "wx_factory/rhs/rhs_sw.py:RhsShallowWater"]}
{"id": "C76", "title": "The Euler test cases start from the balanced atmospheres they are named after", "statement": "The initial states of the Euler test cases are hydrostatic: the pressure that the model computes from the stored density times potential temperature carries the weight of the stored density at every point. The zonal winds of the mountain wave and gravity wave cases balance the pressure gradient. The prescribed winds of the advection cases conserve mass at every time and do not cross the bottom and the top, and the tracers are mixing ratios that satisfy the stated relations. The sponge layer never accelerates the flow away from its reference. The states on the vertical plane are hydrostatic as the comment of the initialisation says (they are not around the bubble).", "quantifier": "every longitude, latitude, height and time, every radius, speed of rotation and top of the model", "why_tests_cant": "a test sees the values at the points of one grid, and a balance only up to the error of the discretisation", "anchors": ["wx_factory/init/initialize.py:initialize_euler", "wx_factory/init/initialize.py:initialize_cartesian2d", "wx_factory/init/dcmip.py:dcmip_T11_update_winds", "wx_factory/init/dcmip.py:dcmip_T12_update_winds", "wx_factory/init/dcmip.py:dcmip_advection_deformation", "wx_factory/init/dcmip.py:dcmip_advection_hadley", "wx_factory/init/dcmip.py:dcmip_steady_state_mountain", "wx_factory/init/dcmip.py:dcmip_schar_waves", "wx_factory/init/dcmip.py:dcmip_schar_damping", "wx_factory/init/dcmip.py:dcmip_gravity_wave", "wx_factory/init/dcmip.py:acoustic_wave"]}
{"id": "C77", "title": "Every test case that the configuration can name starts, and the others are refused", "statement": "Choosing one of the documented case numbers returns an initial state with one value for every variable at every point of every element, on every grid. A number without a case is refused with an error. (At this commit the shallow water cases 0, 8, 9 and 10, the Euler case 20 and the plane cases 0, 1, 3 and 4 always raise an exception, the states of the Euler cases 11 and 12 have the layout of an earlier version, and the vertical plane accepts unknown numbers.)", "quantifier": "every case number, every number of elements and of solution points", "why_tests_cant": "a test starts a few cases on a few grids; the exceptions depend on the shape of the arrays for every grid", "anchors": ["wx_factory/init/initialize.py:initialize_sw", "wx_factory/init/initialize.py:initialize_euler", "wx_factory/init/initialize.py:initialize_cartesian2d", "wx_factory/init/shallow_water_test.py:height_vortex", "wx_factory/init/shallow_water_test.py:case_galewsky", "wx_factory/init/shallow_water_test.py:case_matsuno", "wx_factory/init/shallow_water_test.py:case_unsteady_zonal", "wx_factory/init/dcmip.py:dcmip_steady_state_mountain", "wx_factory/geometry/cubed_sphere_3d.py:apply_topography"]}
{"id": "C78", "title": "The stiffness resilient exponential methods are exact up to their order, however stiff the linear part is", "statement": "For every requested order of at least 3 the nodes of the method exist, are real, distinct and inside the step, and are the zeros of the polynomial that is orthogonal to all lower powers with weight x^2. With phi functions and Jacobian products without error, one step of the method of order p solves u' = L u + b exactly, solves u' = L u + g(t) exactly for every polynomial g of degree up to p - 1 and every linear operator L, and integrates u' = g(t) exactly for every polynomial g of degree up to 2p - 3. Lower orders are refused.", "quantifier": "every order, every linear operator on a normed space, every polynomial forcing, every state and step size other than 0, every solver of phi functions without error", "why_tests_cant": "a test measures the convergence on one problem with a few step sizes; independence of stiffness and exactness for all polynomials concern infinitely many problems, and the existence of real nodes concerns every order", "anchors": ["wx_factory/integrators/srerk.py:opt_nodes", "wx_factory/integrators/srerk.py:Srerk.__step__", "wx_factory/integrators/integrator.py:alpha_coeff"]}
{"id": "C79", "title": "The nonlinear solver returns a solution whenever it reports one", "statement": "When newton_krylov reports a solution, every component of the function at the returned state is within f_tol and the other tolerances hold for the last step; the history of residuals starts with that of the first guess and ends with that of the returned state. The line search returns the value of the function at the state it returns and, with Armijo's rule, the norm of the function never grows. A solution given as first guess is returned unchanged, and an affine equation is solved in one step when the linear solver is exact. When the passes are used up the state is returned all the same, so a returned state need not be a solution.", "quantifier": "every function, first guess, tolerance, number of passes, line search and linear solver (the last two as arbitrary functions)", "why_tests_cant": "a test runs the solver on one equation; that no history of line searches and inexact linear solutions gives a false report concerns every run", "anchors": ["wx_factory/solvers/nonlin.py:newton_krylov", "wx_factory/solvers/nonlin.py:_nonlin_line_search", "wx_factory/solvers/nonlin.py:KrylovJacobian"]}
{"id": "C80", "title": "The implicit integrators are stable for every step size", "statement": "For every dissipative right-hand side, linear or not, and every positive step size, two runs of backward Euler, of the diagonally implicit Runge-Kutta method, and of imex2 without an explicit part do not move apart; BDF2 and Crank-Nicolson do so in a norm of their own, Crank-Nicolson and ros2 in the given norm for affine problems. Errors left by the nonlinear solver of backward Euler add at most dt times their size. Backward Euler and the diagonally implicit method damp fast decaying modes the more the larger the step is. The diagonally implicit method is of second order. The TVD Runge-Kutta method keeps every convex bound that Euler steps keep.", "quantifier": "every real vector space with an inner product, every dissipative right-hand side, every pair of states and every positive step size", "why_tests_cant": "a test takes one equation and a few step sizes; unconditional stability concerns all right-hand sides and arbitrarily large steps", "anchors": ["wx_factory/integrators/sdirk.py:SDIRKLstable", "wx_factory/integrators/backward_euler.py:BackwardEuler", "wx_factory/integrators/crank_nicolson.py:CrankNicolson", "wx_factory/integrators/bdf2.py:Bdf2", "wx_factory/integrators/ros2.py:Ros2", "wx_factory/integrators/imex2.py:Imex2", "wx_factory/integrators/tvdrk3.py:Tvdrk3"]}
{"id": "C81", "title": "The matrix assembled from an operator is the operator, and stored matrices are read back", "statement": "On any number of processes gen_matrix returns on process 0 the matrix whose product with every vector is the value of the linear operator, and with local=True on every process its diagonal block; the result does not depend on how the vector is divided. The factorised blocks invert the diagonal blocks of the operator, on one process the operator. Matrices saved with save_matrices and sets stored with store_matrix_set are read back unchanged. Files left by an earlier run neither change the preconditioner nor stop the next run.", "quantifier": "every number of processes, local size, linear operator and vector; every list of sparse matrices; every matrix set; every subset of the files that an interrupted run left", "why_tests_cant": "a test assembles one matrix on one number of processes; it does not cover all operators, nor the points at which a run can be stopped", "anchors": ["wx_factory/solvers/eigenvalue_util.py:gen_matrix", "wx_factory/solvers/eigenvalue_util.py:save_matrices", "wx_factory/solvers/eigenvalue_util.py:load_matrices", "wx_factory/solvers/eigenvalue_util.py:store_matrix_set", "wx_factory/solvers/eigenvalue_util.py:load_matrix_set", "wx_factory/precondition/factorization.py:Factorization"]}
{"id": "C82", "title": "The exponential solvers with fewer synchronisations build the same basis as the default one", "statement": "Whichever exponential_solver is selected, a substep of the solver builds an orthonormal basis of the Krylov space of the augmented operator and the matrix of the operator in it, so that polynomials of the operator up to the size of the basis are exact. The basis neither depends on how many passes were rejected before it was accepted, nor on the arrays left by earlier substeps, nor on the number of processes, and it is that of the default solver.", "quantifier": "every linear operator, inner product, number of phi functions, state, number of processes, list of sizes of rejected passes and contents of the arrays left by the substeps before", "why_tests_cant": "a test compares two solvers on one problem to a tolerance and mostly on one process; that postponed norms and stale arrays never reach the result concerns every history of rejected passes", "anchors": ["wx_factory/solvers/pmex_1s.py:pmex_1s", "wx_factory/solvers/pmex_ne1s.py:pmex_ne1s", "wx_factory/solvers/icwy_1s.py:icwy_1s", "wx_factory/solvers/icwy_ne.py:icwy_ne", "wx_factory/solvers/icwy_ne1s.py:icwy_ne1s", "wx_factory/solvers/icwy_neiop.py:icwy_neiop", "wx_factory/solvers/cwy_1s.py:cwy_1s", "wx_factory/solvers/cwy_ne.py:cwy_ne", "wx_factory/solvers/cwy_ne1s.py:cwy_ne1s", "wx_factory/solvers/kiops_nest.py:kiops_nest", "wx_factory/solvers/dcgs2.py:dcgs2", "wx_factory/integrators/epi.py:Epi"]}
{"id": "C83", "title": "The statistics printed during a run describe the state of the step", "statement": "Statistics are printed at the multiples of stat_freq. The errors l1, l2 and linf compare the depth with the analytic one at the time of the step; each is 0 exactly for the analytic depth, and a depth that is wrong by a factor 1 + c has the errors |c|. The changes of mass, energy and enstrophy are relative to the initial state; a conserved mass is reported as unchanged. Neither the division of the points among the processes, nor how often statistics are printed, nor an interruption of the run changes what is reported for a step.", "quantifier": "every grid with positive weights, division among processes, sequence of states, analytic depth, step size, end of the run, starting step and stat_freq", "why_tests_cant": "a test looks at a few printed numbers of one run on one number of processes", "anchors": ["wx_factory/output/output_cubesphere.py:OutputCubesphere.__blockstats__", "wx_factory/output/diagnostic.py:global_integral_2d", "wx_factory/output/output_manager.py:OutputManager.step", "wx_factory/init/shallow_water_test.py:height_case1"]}
{"id": "C84", "title": "The number of processes does not change the results of the Euler model on the cubed sphere", "statement": "For a given state and geometry of the atmosphere, the right-hand side of the three-dimensional Euler equations computed by 6 k^2 processes, each holding one of the k x k tiles of a panel and exchanging values and metric terms with its neighbours, is the right-hand side computed by 6 processes, cut into tiles; so are the states after any number of explicit steps, and totals over the atmosphere are the same numbers. The slopes of the layers and the Christoffel symbols the processes compute from the terrain on their tiles are those of the panels too.", "quantifier": "every number of tiles per panel, number of columns, layers and points, state, terrain, heights and slopes of the layers, Christoffel symbols, damping, deep or shallow atmosphere, step size and number of steps", "why_tests_cant": "a test runs a few decompositions of one state, and compares up to a tolerance", "anchors": ["wx_factory/rhs/rhs_dfr.py:RHSDirecFluxReconstruction", "wx_factory/pde/pde_euler_cubesphere.py:PDEEulerCubesphere", "wx_factory/geometry/metric3d.py:Metric3DTopo", "wx_factory/process_topology.py:ProcessTopology"]}
{"id": "C85", "title": "An atmosphere at rest under one pressure feels nothing but gravity", "statement": "Where the momentum is zero and rho theta (so the pressure) is the same everywhere, the right-hand side of the three-dimensional Euler equations on the cubed sphere gives no horizontal acceleration and no tendency of rho theta, and the tendency of the vertical momentum is the weight alone, whatever the mountains: the metric terms at the points and faces and the Christoffel symbols computed from them balance exactly. Where the density too is the same everywhere it does not change. The equations for the Christoffel symbols always have exactly one solution.", "quantifier": "every number of tiles, columns, layers and points, set of distinct points, heights and slopes of the layers, density field, pressure, deep or shallow atmosphere", "why_tests_cant": "the balance involves all the points of an element, and has to hold over every mountain; a test compares a few against a tolerance", "anchors": ["wx_factory/rhs/rhs_dfr.py:RHSDirecFluxReconstruction", "wx_factory/pde/pde_euler_cubesphere.py:PDEEulerCubesphere.forcing_terms", "wx_factory/geometry/metric3d.py:Metric3DTopo.build_metric", "wx_factory/geometry/operators.py:DFROperators.grad"]}
{"id": "C86", "title": "The layers of the atmosphere follow the terrain", "statement": "Over any terrain below the top, the lowest interface of the three-dimensional cubed sphere is the terrain, the highest is level, and the solution points of every layer lie strictly between its two interfaces, in order. The derivative of the height along eta that enters the metric is the distance from the terrain to the top, exactly. Where the terrain is a polynomial of degree up to ns + 1 along a line of an element, the slope of the layers there is the slope of the terrain times (1 - eta), exactly, at the points and between the layers. Without mountains all layers are level: the slopes vanish at the points and at all interfaces, also those between tiles and panels, and the metric has no mixed horizontal-vertical terms.", "quantifier": "every terrain, number of tiles, columns, layers, set of distinct points strictly inside the element, height of the top", "why_tests_cant": "holds for every terrain and number of layers; tests look at a few DCMIP mountains", "anchors": ["wx_factory/geometry/cubed_sphere_3d.py:CubedSphere3D.apply_topography", "wx_factory/geometry/cubed_sphere_3d.py:CubedSphere3D._build_physical_coordinates", "wx_factory/geometry/metric3d.py:Metric3DTopo.build_metric"]}
{"id": "C87", "title": "The implicit and exponential integrators do not depend on the number of processes", "statement": "Run on any number of processes, the linear solver fgmres, the nonlinear solver newton_krylov, the exponential solvers pmex and kiops, and steps of ros2, Crank-Nicolson, backward Euler, SDIRK, BDF2, EPI and SRERK with them give the same solution, the same residuals and the same number of iterations, for the shallow water equations and for the Euler equations over any terrain; if one run raises, so does the other. pmex, kiops and newton_krylov never let the processes get out of step. If newton_krylov is not told how many iterations to make, the limit is 100 times the number of entries of one process, so that what it returns when it finds no solution does depend on the number of processes. fgmres keeps them in step only as long as its test for stagnation, which each process makes on its own entries without asking the others, comes out the same on all of them.", "quantifier": "every decomposition of the panels, state, terrain, topography, operator, preconditioner, tolerance, restart and number of iterations, order of EPI, number of steps", "why_tests_cant": "holds for every decomposition and every state; a test compares a few counts, and the processes get out of step only for special states", "anchors": ["wx_factory/solvers/fgmres.py:fgmres", "wx_factory/solvers/pmex.py:pmex", "wx_factory/solvers/global_operations.py:global_dotprod", "wx_factory/integrators/ros2.py:Ros2", "wx_factory/integrators/epi.py:Epi", "wx_factory/solvers/nonlin.py:newton_krylov", "wx_factory/solvers/kiops.py:kiops", "wx_factory/integrators/srerk.py:Srerk", "wx_factory/integrators/crank_nicolson.py:CrankNicolson", "wx_factory/integrators/backward_euler.py:BackwardEuler", "wx_factory/integrators/sdirk.py:SDIRKLstable", "wx_factory/integrators/bdf2.py:Bdf2"]}
{"id": "C88", "title": "The stiff and nonstiff parts of the shallow water equations sum to the whole", "statement": "For any state with positive depth at the faces of the elements, with or without topography, on any number of processes, the values of rhs_sw_stiff and rhs_sw_nonstiff add up to the right-hand side of rhs_sw, for every variable at every point (the same fields in the older layout of the arrays). rhs_sw_nonstiff leaves the depth alone, and rhs_sw_stiff keeps the mass of the whole sphere. As they stand the two functions cannot be called: the exchange of scalars lacks its argument boundary_shape; the claim is about the functions with it.", "quantifier": "every state with wet faces, topography, number of tiles, elements and points", "why_tests_cant": "holds for every state and grid; a test compares the sum on a few states, and none exists", "anchors": ["wx_factory/rhs/rhs_sw_stiff.py:rhs_sw_stiff", "wx_factory/rhs/rhs_sw_nonstiff.py:rhs_sw_nonstiff", "wx_factory/rhs/rhs_sw.py:RhsShallowWater"]}
{"id": "C89", "title": "Transport of a tracer on the sphere keeps its total, is linear and upwind", "statement": "rhs_advection2d, on any number of processes: the integral over the sphere of the tendency of the tracer is zero, for every tracer and every wind; the tendency of a combination of two tracers carried by the same wind is the combination of their tendencies; and where the wind across the faces of an element is the same on both sides, the tendency at a point is minus the divergence of the polynomials through the fluxes at the points and the upwind fluxes at the faces, so that what crosses a face has the value of the side the wind comes from.", "quantifier": "every tracer, wind, number of tiles, elements and points", "why_tests_cant": "holds for every state and grid; a test looks at a few winds, and none exists", "anchors": ["wx_factory/rhs/rhs_advection2d.py:rhs_advection2d"]}
{"id": "C90", "title": "The older right-hand sides on a vertical plane keep mass and obey the momentum balance", "statement": "rhs_bubble_implicit, rhs_bubble_convective and rhs_bubble_fv, for every state: the total mass does not change, and the total momentum changes only by the pressure on the walls and by weight; rhs_bubble_convective and rhs_bubble_fv keep the total of rho theta; rhs_bubble_implicit keeps the potential temperature of each point. Away from the walls and where the state is continuous across the faces, the tendencies are minus the divergence of the Euler fluxes (of their acoustic part for the implicit one), and weight. On a domain periodic along x1, rhs_bubble_convective keeps the mass of the domain.", "quantifier": "every state, number of elements and points, spacing, and content of uninitialised arrays", "why_tests_cant": "holds for every state and grid; no test exists for these functions", "anchors": ["wx_factory/rhs/rhs_bubble_implicit.py:rhs_bubble_implicit", "wx_factory/rhs/rhs_bubble_convective.py:rhs_bubble", "wx_factory/rhs/rhs_bubble_fv.py:rhs_bubble_fv", "wx_factory/pde/fluxes.py:ausm_2d_fv"]}
{"id": "C91", "title": "The name of the time integrator decides the method, its order and its tendencies, and every listed name can run", "statement": "Creating a simulation gives the method that time_integrator names, of the order written after epi, epi_stiff or srerk, with the right-hand side of the equations, grid and discretization; any other name, order or combination is refused with an error at creation. Every listed name runs with some configuration, and the discretization decides which right-hand side is used. (At this commit partrosexp2, imex2 and the Strang splittings cannot take a step with any configuration, fv on the plane fails at its first evaluation, and on the cubed sphere the discretization is ignored.)", "quantifier": "every text for the name, the equations, the grid, the discretization and the preconditioner, and every order", "why_tests_cant": "names and orders are unbounded texts; tests start a few configurations", "anchors": ["wx_factory/simulation/simulation.py:Simulation._create_time_integrator", "wx_factory/rhs/rhs_selector.py:RhsBundle", "wx_factory/init/init_state_vars.py:init_state_vars", "wx_factory/rhs/rhs_fv.py:RHSFiniteVolume"]}
{"id": "C92", "title": "The exponential solver of the configuration is the one that a run uses", "statement": "A run of an exponential method with one of the values of exponential_solver that the schema accepts computes its exponentials with the solver of that name; other values are refused with an error. (At this commit this holds for the EPI methods; srerk refuses exode and pmex_ne, and epi_stiff and rosexp2 use kiops and pmex without a message for values they do not know.)", "quantifier": "every text for exponential_solver, every method and order", "why_tests_cant": "a run with the wrong solver gives a plausible result; tests run few pairs of method and solver", "anchors": ["wx_factory/integrators/epi.py:Epi.__step__", "wx_factory/integrators/epi_stiff.py:EpiStiff.__step__", "wx_factory/integrators/srerk.py:Srerk.__step__", "wx_factory/integrators/rosexp2.py:RosExp2.__step__"]}
