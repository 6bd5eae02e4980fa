# Formal model of numagic/lumos in Rocq (Coq 8.16.1)

## 1. Approach

* Small total Gallina functions; a Python exception is a value of a `result` type (`Ok v` / `Raise e`); objects that are mutated are
  records, methods return the new record.  Where a method can fail half-way the model keeps what was already changed, and this is
  what the "not atomic" findings are about.
* Dictionaries are insertion-ordered association lists with Python's semantics (`dset` keeps the position of an existing key).
  Strings are Coq strings.
* Structural / index code (trees, decision variable layout, sparsity structures, batching, registries, logging, backends) is
  modelled over an arbitrary element type or over nat/Z.
* Numeric code (constraints, jacobians, scaling, collocation, mesh, forces, tracks, tires) is over the standard library's reals `R`.
  **Floating point rounding, NaN and overflow are not modelled.**
* Derivative claims use the standard library's `derivable_pt_lim` coordinate by coordinate (`pderiv`), so "is the exact jacobian"
  does not mention the model's own derivative code.
* External code (jax/CasADi automatic differentiation, `numpy.roots`, cyipopt, file system, directory listing order, `str(float)`)
  is an oracle: a Section variable, hence a universally quantified argument of the theorem, with hypotheses where the code relies on it.

Files: `theories/<Area>Model.v` (definitions, every one cited by file:lines), `<Area>Spec.v` (independent specification, where the
statement needs vocabulary), `<Area>Proofs*.v` (lemmas), `<Area>Props*.v` (property theorems `Cnn_...`, each followed by
`Print Assumptions`; an `Example Cnn_nonvacuous` showing a concrete case that meets the hypotheses; `..._refuted` theorems are
findings: a proved counterexample to what one would expect).

## 2. Properties: model and proof

| Id | What is modelled | How it is proved |
|----|------------------|------------------|
| C01-C06 | `models/tree_utils.py`: rose trees with association-list children, `to_dict`/`from_dict`, dotted flat dictionaries, pytree flatten, ravel with shapes, get/set/replace by path (TreeModel) | nested induction; split/join lemmas, key injectivity, lens laws |
| C07-C12 | `optimal_control/utils.py`: `batch_conv1d`, `DecVarOperator`, offset structures (UtilsModel) | div/mod index arithmetic, list lemmas |
| C13-C17 | `nlp.py` constraint/objective objects and `CompositeProblem` as state machines; COO matrices denote functions (NlpModel) | invariant over all operation lists; chain rule with `derivable_pt_lim` |
| C18 | `solve` around an arbitrary optimizer oracle | order reasoning in R |
| C19 | `LinearConstraints` with cache | invariant over histories |
| C20-C22 | Lagrange/Legendre collocation, transcriptions over R (CollocModel) | polynomial root counting, mean value theorem, antiderivatives |
| C23-C25 | mesh, continuity constraints, their hand-written jacobian and hessian (MeshModel, OcpModel) | sums, partial derivatives coordinate by coordinate |
| C26-C28 | bounds / boundary conditions / scales / cyclic constraints of the OCP (BoundModel, ScaleModel, CyclicModel) | refinement of "last accepted call" over all histories |
| C29 | condensed problem (CondModel) over an arbitrary model algebra; instantiated with the algebra of C34 | substitution, chain rule, second derivatives |
| C30-C34 | composite models: call protocol, recursive parameters, registry, named vectors, model algebra and its structures (CompModel, IoModel, AlgModel) | tree induction, list/permutation lemmas |
| C35 | `ConvConstraints`, `MappedConstraints` (ConvModel) | COO denotation, sums over windows |
| C36, C37 | backend context managers, `lmap`/`cmap` (NumpyModel) | induction over programs; cache invariant |
| C38 | `SimConfig`, `BoundConfig` (CfgModel) | case analysis, induction over tuples |
| C39 | logging machine with a file map and an arbitrary listing order (LogModel) | invariant over the callback sequence and over solves |
| C40 | `numpy/casadi_numpy.py` (CasModel) vs a specification of numpy (CasSpec) | induction; witnesses for the wrong ones |
| C41 | `SimpleVehicle` forces (VehModel) | field / linear arithmetic, power balance |
| C42 | objectives and gradients | partial derivatives of finite sums |
| C43 | Fornberg finite differences (FdModel) | recurrence on the grid, uniqueness by a Vandermonde argument on polynomials |
| C44 | track kinematics (KinModel) | derivatives of compositions, chain rule in time and distance |
| C45 | race tracks: interpolation, integration, construction from points (TrackModel) | list induction, integrals, rotation algebra |
| C46 | Perantoni tire (TireModel) | real analysis of sin/atan |
| C47 | `.tir` file reader on strings (TirModel) | induction over characters and lines |
| C48 | drone dynamics (DroneModel) | derivatives along motions |
| C49 | mlp / gp aero maps (AeroModel) | induction over layers, tanh and exp bounds |
| C50 | `ModelSolver` (SolverModel) on top of NlpModel and AlgModel | the state is a function of the accepted calls; C18 and C34 composed |
| C51 | the whole of ScaledMeshOCP / FixedMeshOCP (BuildModel) on top of the models of its pieces | invariant of the history; the pieces' theorems (C08, C18, C23-C28, C34, C35, C42) composed |
| C52 | LaptimeSimulation (LapModel) on top of BuildModel and TrackModel; the vehicle model is any model | a lap history is a history of the fixed-mesh problem (`expands`); C51, C45, C26 composed |
| C53 | DroneSimulation (FlightModel) and DroneModel on top of BuildModel, not condensed | C51 composed with the drone's equations; `flight` is an elementary specification without vectors or groups; explicit flight and hand-written derivatives as example |
| C54 | SimpleVehicle and SimpleVehicleOnTrack as dictionaries and submodel calls (RaceModel), on top of VehModel, KinModel, IoModel, LapModel | C52 composed with the vehicle; `mechanics` and `drive` are elementary (forces, torques, slips, no vectors or groups); inside the default limits the geometry excludes every zero denominator (tan/PI bounds by hand); example: default car, Perantoni tires, constant aero, coasting on a straight road |
| C55 | MF52 tire (PacModel): every function of pacejka.py over the reals, divisions by zero as undefined values, parameter dictionary with missing keys; default coefficients generated from the source | `mf52` states the textbook equations as relations without division by zero (cos(atan x) as 1/sqrt, sin(2 atan x) rationally); mirror symmetry function by function; extrema by the intermediate value theorem, slope with a curvature that jumps at 0 by hand; definedness of the default tire by bounds on atan, sqrt, PI |
| C56 | ScaledMeshOCP with is_condensed=True from the configuration to `solve` (CBuildModel on BuildModel and CondModel): constructor with the bounds it adds, the two stored constraints and their parameters, the structure guessed at a random vector, the calls | C29 composed with C51: a condensed history is that of a full problem with added bounds (`twin`), whose constraints are exchanged; feasibility and optima in the vocabulary of C51 (`trajectory`, `best`) with the derivative variables existentially quantified (`same_elsewhere`); derivatives by a jacobian stack with missing entries (`masked`) |
| C57 | the other functions of `numpy/casadi_numpy` (LnpModel) and `SimpleVehicle.forward` on CasADi matrices (CasVehModel) vs numpy's broadcasting, concatenation, products (LnpSpec) and the vehicle of C41 (VehModel) | case analysis on shapes, induction on lists of blocks; each vector operation of the vehicle preserves `is3` |
| C58 | the build of `_make_casadi_model_algebra_cons` as a program counter over file operations, any number of processes in one directory, kills and compiler deaths as events (ArtModel); `export_c_code` on the models of C31 | invariants along schedules (each build owns the C file; existing libraries stay), induction on the schedule from the right; witnesses for all pairs of models |
| C59 | `examples/brachistochrone.py`: reference solution, both models, hand-written derivatives, the time-domain problem on top of the model of C51 (BrachModel); rides as continuous functions that obey the model except at finitely many instants (BrachSpec), slides of the trapezoidal rule (BrachSpec2) | optimality by an isoperimetric inequality: a monotone angle function along any ride bounds the distance by the time; derivatives entry by entry; trajectories = slides as in C53; the energy by induction on the points |
| C60 | the jax path of the model algebra: Lagrangian, extraction of the declared positions, the model with these derivatives (JaxModel); jax.jacobian and jax.hessian are oracles with the assumption `autodiff_ok`, twice differentiable models are stated on `forward` (JaxSpec) | every row of the residual is a function of the first components minus a coordinate, so it has a hessian; outside the declared structure the derivatives are 0 by C34; composed with C51 and C56; the oracles are shown to exist (with Coquelicot's Derive, in an example only) |
| C61 | nothing new is modelled: trajectories (BuildSpec) of the transcriptions (CollocModel); motions in continuous time, Lipschitz models and orders are specified in OrderSpec | each transcription is brought to the form x_j = x_0 + h sum a_jk f_k, exact for polynomials of its order (LGR through its interpolant); Taylor expansion with mean value theorem for the local error, a fixed point estimate in every interval, induction over the intervals |
| C62 | ShareModel: nodes and dicts as objects on a heap (references, mutation in place), the tree operations, set/get_recursive_params with their copies, what constraints keep (live tree or flat array), programs as event lists | an ownership colouring of the heap closed under references is an invariant of all events; set_param on an unshared tree of objects refines TreeModel.set_param; frame lemma per owner; the effect of set_param is read off the dict object that a path addresses |
| C63 | FloatModel: doubles as reals of Flocq's FLT format (emin -1074, 53 bits), every numpy operation followed by rounding to nearest even: np.linspace as numpy computes it, the checks, LGR rows, lengths, scaled mesh, scaled bounds/guess and unscaled solution. Overflow/NaN not modelled | FloatSpec states doubles and nearest doubles without Flocq; relative error of each operation (sums without underflow condition), Sterbenz for exact differences, exactness of x != y -> x - y != 0, ties to even for the last interval; witnesses computed by a rounding lemma |
| C64 | FsumModel: the scaled callbacks and their setters as an object in doubles; a sum of products as a relation over all orders, groupings and fused operations; one entry of _continuity_constraints. User functions are arbitrary functions on doubles | state after any history by induction; relative error per entry; induction over the derivation of a sum with (1+u)^n - 1 bounded by (n+1)u; exactness for powers of two by format lemmas |
| C65 | CpModel: parameter values that are numpy arrays (C order) or CasADi matrices (column-major), the dispatch of _size, _shape, _ravel, _split, _concat and unravel, and the parameters a compiled function sees (unravel of a CasADi column with the numpy shapes) | chunks of the vector are determined by their lengths; element arithmetic with div and mod; witnesses for MLPAero and GPAero |
| C66 | TraceModel: a world of one model object (parameters that are values or dead tracers, constraint outputs, latest batched forward) and problems with their parameters and functions (compiled, traced on first use per signature, or plain Python); constructing, evaluating, modifying and calling as steps. Reference: TraceSpec.expect_run, in which every problem has its own parameters and constraint outputs | simulation invariant between the world and the reference over all histories; invariants for leaked tracers; witnesses |
| C67 | NfunModel: an NLPFunction object with attributes, the traces kept per derivative and argument shapes, the last iterate (array or dead tracer); jax.grad, jacobian and hessian as oracles assumed to give partial derivatives that exist. NfunSpec: the attributes at the first evaluation, by recursion over the history | invariant relating the kept traces to the history; upper triangle by counting; witness objective k*x |
| C68 | PlainModel: forward_with_arrays of a stateless model (through the make_vector and _array_to_dict of IoModel), get_input/get_output, num_*, and an object whose parameters change with apply_and_... ; forward abstract | case analysis on what forward returns and which names are present; histories by recursion |
| C69 | AliasModel: a heap of arrays, constraint, objective and problem objects with references, the setters that keep an array instead of copying it, both ways of rescaling; AliasSpec: the same calls with values (the functions of NlpModel) and the programs in which no object or array is reused | separation invariant (who may write to which array, which problem holds which object), one footprint lemma for all calls on a problem, induction over programs; staleness invariant on the value side |
| C70 | DomModel: vehicle, Perantoni tire and track kinematics written out once more with checked division and square root (None = not defined); DomSpec: the denominators as quantities of the car, road and driver. Proved: the exact domain in both directions, equality with the unchecked models on it, a region of the default bounds inside it, and points of the bounds outside it. |
| C71 | LocSpec: jacobian, gradient and hessian on a domain with room around every point; within / stays_in carry a domain of states and inputs to all stages of a trajectory. The assembly, scaling, convolution and collocation proofs of C51 again, relative to the domain; LocJaxSpec: the specification of automatic differentiation on a domain (asked at the points of the domain only). |
| C72 | LocCalc: a calculus of second derivatives of closed formulas on a domain (sum, product, quotient, sin, cos, atan, sqrt, composition); LocRaceSpec: the domain of the car in physical quantities. Every formula of VehModel, TireModel, KinModel goes through the calculus; C71 gives the problem; the guess is shown to be inside, and the point at rest is shown to have no derivative. |
| C73 | RollModel: the rollout loop over numbers and, separately, over a heap of arrays (`+=` writes into the caller's cells); the decorator as a fold over backend names with a test body that may change the backend and end in any way. RollSpec: the path of explicit Euler steps, the backend a name stands for. Iff by induction over the steps; convergence from Taylor's formula (C61) and a discrete Gronwall argument; the heap version refines the number version when the cells are distinct. unittest's subTest is taken to record and go on (failfast off). |
| C74 | The calculus of C72 extended to vectors: dot products, matrix products, tanh layers, exp of squared distances; induction over the layers. The submodels of AeroModel are shown to compute a function with second derivatives, which is what C72 asks of the aero model. |
| C75 | LocPacSpec: a smooth point of the tire, in the quantities of PacSpec. The force is rewritten as a closed formula by C55_forces; the calculus of C72 gets the limit min(1, E), the sign away from zero, and the switch at zero slip: gate(x) g(x) is twice differentiable when g and its first two derivatives vanish with x, which is so for z - atan z. Openness from the zero sets of the guards. |
| C76 | LocTireSpec: tires that keep second derivatives on a set of loads and slips with room around it. The layers of C72 are redone with the tire a variable, and the sets of the four wheels are intersected one after the other; the lap theorem is C71 applied to the result. The two tire models are instances (C72, C75), and an example simulation with the default MF5.2 tire meets every hypothesis. |

## 3. Trusted base

1. Coq 8.16.1's kernel (no plugin, no native/vm casts beyond the kernel's own, no kernel check switched off), `coqc`, and the
   standard library. No other library is imported (mathcomp, std++, Coquelicot etc. are not used).
2. The axioms of the standard library listed by `Print Assumptions` for each theorem (section 6): the axioms behind the reals
   (`ClassicalDedekindReals.sig_forall_dec`, `ClassicalDedekindReals.sig_not_dec`), `FunctionalExtensionality.functional_extensionality_dep`
   and `Classical_Prop.classic`. No axiom, Parameter, Admitted or open obligation of our own; Section variables are discharged and
   appear as quantifiers.
3. The model is a hand transcription of the Python text; nothing connects the two mechanically. Each definition cites the lines it
   transcribes and says where it simplifies.
4. Semantics of Python, numpy and CasADi primitives as documented (indexing, slicing, broadcasting to the extent used, reshape,
   concatenate, `dict` order, `IntEnum`, `np.split`, ...).

## 4. What is modelled and what is not

Modelled (all under `lumos/`): `models/tree_utils.py`, `models/composition.py`, `models/base.py` (naming, composition, calls, algebra,
structures), `models/{kinematics,tracks,drone_model,ml,simple_vehicle_on_track}.py`, `models/vehicles/simple_vehicle.py`,
`models/tires/{perantoni,pacejka,utils}.py`, `models/aero/aero.py`, `optimal_control/{utils,nlp,convolution,collocation,transcription,
scaled_mesh_ocp,fixed_mesh_ocp,config,model_solver}.py` (including the condensed problem, objectives and logging, which live in
scaled_mesh_ocp.py and nlp.py), `numpy/__init__.py`, `numpy/utils.py`, `numpy/casadi_numpy/*` (the functions named in C40, C43 and C57; not linalg.solve, max and min), and the
objectives of `simulations/laptime_simulation.py`, `simulations/drone_simulation.py`, the file operations of the CasADi build and `export_c_code` (C58), and `examples/brachistochrone.py` (C59; of its distance-domain problem only the model). The exact lines are cited at each definition.

Not modelled: floating point; automatic differentiation and code generation by CasADi/jax (oracles, assumed to return the derivative
where a theorem says "if the pieces are exact"); IPOPT itself; the numeric root finder (`numpy.roots` is assumed to return the real roots
ascending; that they exist and are distinct in (-1,1) is proved, C21); Legendre-Gauss-Lobatto points; plotting and command line; `profile_compile`-style timing code; the names of logging directories (a time stamp: two problems created within one second share
one); multi-threading of `cmap` (order-preserving by contract).

## 5. Findings (proved as `..._refuted`, or visible in the statements)

* C02, C05: parameter names containing "." break or merge; non-default delimiters fail; a leading "." is ignored. C04: arrays of size 1
  come back as scalars, of size 0 raise, short vectors can be accepted.
* C07: windows longer than the sequence are not always rejected. C08: a group called "global" collides. C09: wrong lengths accepted.
* C13: scales are stored by reference. C15: number of inputs of objectives unchecked. C17: hessian uses a stale mask after a change.
* C18: negative scales accepted; constraint bounds are not scaled. C19: "linear" is not checked.
* C23: mesh ends only within 1e-6. C26: `update_bounds` not atomic, a rejected boundary condition sticks. C27: failing `set_scales`
  leaves inconsistent scales. C28: dotted names cannot be cyclic; all-excluded fails late.
* C29: the (scale, scale) entry of the condensed hessian is counted once although the algebra's dependence on the mesh adds to it;
  the jacobian structure is detected at one random point; the constructor mutates the `bounds` of the configuration it is given;
  `modify_model_param` raises AttributeError on condensed problems.
* C30, C31: an interrupted round / a failed `set_recursive_params` leaves partial state. C32: a class containing itself recurses.
* C35: with a mesh-dependent unit problem the mesh scale derivative is missed; overlapping windows count entries twice.
* C36: a context used as a decorator restores the wrong backend. C37: batch size from the wrong argument.
* C38: logging config and lists do not round trip; mixed tuples unvalidated. C39: only status -13 counts as failure; leftovers of a
  failed solve are merged; history never cleared; mesh column wrong with a scaled mesh scale; second solve may lose its first record.
* C40: `diff` above order 1, `roll` other than by 1, `mean` of a matrix, `geomspace`, `split` corner cases differ from numpy.
* C41: the slip ratio is computed from the speed of the centre of gravity, not of the wheel.
* C43: bad arguments return an exception object. C45: curvature at the start of a track at most half the true one on a circle;
  `ConstCurvTrack` has no track width. C46: forces reverse above 22.57 kN; the peak is not at the documented slip.
* C47: comment lines with "=" are read as data, values may come from comments. C49: layers taken in dictionary order.
* C50: `hessian` of a ModelSolver always raises KeyError; dotted group aliases accepted; a second solver on the same model breaks
  `set_var_scale` of the first; a failed construction leaves the model's constrained outputs changed.
* C51: `set_normalized_mesh` after construction leaves the model algebra on the old mesh positions (C51_remesh_refuted); `set_mesh_scale` accepts any value (C51_mesh_scale_unchecked_refuted).
* C45: where the points return to the point before the last, the finite difference speed is 0 and the curvature 0/0 (C45_return_refuted).
* C52: in a cyclic lap `track_curvature` is cyclic and fixed at both ends: infeasible on a road whose end curvatures differ (C52_cyclic_refuted; the comment in the code says `close, ~1e-5 delta`); the default boundary conditions are those of the cyclic case although `is_cyclic` defaults to False (C52_config; FIXME in the code); the closing segment of a closed track is not part of the lap (C52_gap_refuted); `LTCConfig.__post_init__` appends to the list the caller passed as `non_cyclic_vars` (visible to the caller; lists are values in the model).
* C54: the default limits on states and inputs alone admit a car sliding backwards along the road, where dt/ds < 0 (C54_backwards_refuted); only the slip limits together with the geometry of a sensible car exclude it.
* C55: at zero load both forces are 0/0 for every tire: `epsilonx * sign(Dx)` is 0 with Dx (C55_zero_load_refuted); at the largest load and slip angle of the default tire the weight Gxa, `(> 0)` in the comment, is negative and reverses the longitudinal force (C55_reversed_refuted).
* C56: building a condensed problem appends bounds to the caller's configuration object; a full problem built from the same object afterwards has no feasible point (C56_config_refuted). Changing model parameters raises AttributeError after the new parameters are already stored, so that chain rule and constraints disagree (C56_params_refuted). Bounds of the configuration on the derivative variables are silently overridden by 0 (C56_solve, C56_dots). The structure of the jacobian is that at one normally distributed vector; the comment calls the risk of missing entries low, but for x' = max(0, u)^3 an entry is lost whenever the random u is not positive, and IPOPT is told 0 for a derivative of -3 (C56_sparsity_refuted).
* C57: in the CasADi layer, `norm` with any order but 1, 2 or "fro" is a NameError (`np` is not imported in linalg.py) and with axis=-1 a ValueError from `sum` after its own check accepted -1 (C57_norm_refuted); orders 1 and 2 of a matrix are entry-wise; `dot`/`inner` of matrices are the sum of entry products (C57_dot_refuted), `outer` of two rows is 1 x 1 (C57_outer_refuted); `cross` with axis=1 of a 3 x n matrix works along axis 0 (C57_cross_axis_refuted); rows are not broadcast, blocks are repeated where numpy raises (C57_broadcast_refuted); `concatenate(axis=-1)` raises, `hstack`/`vstack` of vectors have other shapes (C57_stack_refuted); `split` ignores tuples of indices and ends in UnboundLocalError for axis=-2 (C57_split_refuted); `reshape` is column-major (C57_reshape_refuted).
* C58: the library cache is keyed by the hash of a shared file and trusted by name: a kill while linking disables the model for good (C58_killed_link_refuted), two processes in one directory can exchange or permanently poison their compiled models (C58_race_refuted, C58_race_poisons_refuted, C58_same_model_refuted), and a failed build or export leaves CasADi symbols as parameters (C58_failed_build_refuted).
- C59 `C59_rise_refuted`, `C59_faster_refuted`: the trapezoidal problem of the brachistochrone example accepts rides that end above their start and rides that are faster than the brachistochrone (its energy error is `C59_energy`).
- C59 `C59_root_refuted`: `cycloid` takes whatever root `newton` finds; other roots give a wrong time.
- C59 `C59_custom_con_refuted`, `C59_custom_batch_refuted`: the hand-written jacobian misses the row of a constrained output; `batched_forward` of the backend "custom" raises IndexError for every batch (so condensed problems with a free mesh scale and result logs cannot use it). `solve_brachistochrone` ignores its `backend` and `is_condensed` arguments (read off the source: brachistochrone.py:265-318).
- C59 `C59_distance_energy`: the 1e-9 of the distance model changes the energy at a known rate.
- C62 `C62_shared_refuted`: the example script puts one dict object into the four tire nodes; a later `set_param` on one tire of that tree changes all four (problems built from it are not affected).
- C63: in doubles, user-given interval points with LGR need not be mesh points and intervals need not join: for 0, 0.2, 0.9, 1 the second interval ends at 0.8999999999999999 and the third starts at 0.9 (C63_user_gap_refuted; the default mesh always joins, C63_uniform_lgr). A variable fixed to 0.9 with scale 10 is returned as 0.8999999999999999, outside its bounds (C63_fixed_refuted). Scaling can merge two distinct mesh points (C63_collapse_refuted).
- C64: the computed continuity defect depends on the order in which einsum adds: for the same states one order gives 0 and another 2^-52 (C64_order_refuted), so two installations may disagree in the last digits about feasibility; C64_continuity bounds the difference for every order.
- C65: with CasADi every matrix parameter is read in the wrong order: tree_ravel flattens numpy matrices row by row, and the unravel that the compiled functions are built on reshapes column by column. GPAero and MLPAero therefore use other weights with CasADi than with jax; square layers are transposed (C65_mlp_refuted, C65_gp_refuted, C65_matrix_refuted). Scalars and vectors, so all other models in the repository, are not affected (C65_vectors). Three-dimensional parameters cannot be compiled (C65_cube_refuted).
- C66: make_model_algebra_cons restores the parameters after building ("some backends would replace model params with ... tracers during tracing"), but jax traces later, on first evaluation, and nothing restores them then: after solving a jax problem the model holds dead tracers, model.forward fails and a second problem on the same model cannot be evaluated (C66_leak_refuted, C66_leak_new_refuted, C66_second_refuted). The constraint outputs a jax problem uses are those the model has at first evaluation (C66_late_trace_refuted); batched_forward is the latest problem's (C66_batch_refuted); custom problems overwrite the model's parameters at each evaluation (C66_custom_refuted).
- C67: NLPFunction jits its derivatives with self as a static argument: attributes are baked in at the first evaluation, so a subclass whose objective has a parameter gets stale derivatives after changing it (C67_stale_refuted), and tracing the hessian goes through objective(), which stores the tracer as the last iterate (C67_last_refuted).
- C68: Model.apply_and_forward_with_arrays calls self.forward_with_array (no such method; forward_with_arrays exists), so it fails for every stateless model, after having set the parameters (C68_apply_arrays_refuted); Model.num_con_outputs raises AttributeError, a ModelIO has no con_outputs (C68_num_con_outputs_refuted).
- C69: add_constraints/add_objective keep the object and push the problem's scale array into it, so a constraint object used in two problems works in the scales of whichever was scaled last (C69_one_constraint_two_problems_refuted, C69_rescaling_the_other_problem_refuted); set_con_scales keeps the caller's array but derives the jacobian scales once, so a later write to the array makes the jacobian wrong (C69_writing_to_scales_refuted); set_default_scales of a problem that has pieces does not tell them (C69_default_scales_refuted).
- C70: the default bounds of the laptime simulation contain points where the model divides by zero (C70_bounds_refuted): the heading error may reach 45 degrees and vy 10 m/s at vx = 8 m/s, so the speed along the road can vanish; with vx = 5, vy = 10 and a yaw rate of 4.4 rad/s a steered front contact patch stands still; and ax, ay are unbounded, so a wheel load can be zero (MF52 divides by it) or reach 38000 N (Perantoni's peak slip angle is extrapolated to zero). A car at rest has no derivatives (C70_standstill_refuted).
- C71, C72: C51 and C60 assume a model that is differentiable at every point; no vehicle is (C72_standstill_refuted: the slip ratio divides by the forward speed, whatever the parameters and submodels). C71 and C72 replace the assumption by the domain of C70, so for the car they hold without an unmeetable hypothesis. The initial guess of the simulation is inside the domain (C72_guess), but nothing in the code keeps IPOPT there (C70_bounds_refuted).
- C73: `_forward_euler` says it does not modify the initial states, but copies only the dictionary: with arrays as values `+=` writes into the caller's arrays, which end up holding the final states (C73_arrays_refuted). The outputs it returns are those of the state one step before the one it returns (C73_rollout), and zero steps is an UnboundLocalError. `use_backends(["jxa"])` runs the test under the backend in force, since set_backend only logs an unknown name (C73_backends).
- C74: the simple vehicle hands its aero model the forward speed as front_ride_height, the lateral speed as rear_ride_height and the yaw rate as yaw (simple_vehicle.py:195), so an aero model other than the constant one is evaluated at quantities it was not trained on. The theorems follow the code.
- C75: the curvatures of MF5.2 are limited by min(1, E), which gives kinks in the load. For the default tire one is at 3249 N (REX1 + REX2 dfz = 1), an ordinary wheel load, and one near 17340 N: at the first there are a longitudinal slip and a slip angle for which the longitudinal force has no derivative in the load (C75_kink_refuted); between them the forces are smooth (C75_default).
- C76: the tires are asked about the camber 0 only, which is what the simple vehicle gives them (simple_vehicle.py:287). A wheel load may reach 3249 N within the bounds on the inputs of the laptime simulation (assumed accelerations are unbounded), so the domain of C76_default, like that of C72, is not one that the solver is kept in.

## 6. Print Assumptions, theorem by theorem

* no axioms (closed under the global context): C01_dict_roundtrip_param, C01_dict_roundtrip_config, C01_dict_roundtrip_back, C02_flat_keys, C02_flat_roundtrip, C02_flat_replace, C02_config_flat_roundtrip, C02_dotted_key_refuted, C02_dotted_key_merge_refuted, C03_flatten_unflatten, C03_unflatten_flatten, C03_aux_shape_only, C04_ravel_roundtrip, C04_size_one_refuted, C04_size_zero_refuted, C04_short_vector_refuted, C05_set_get, C05_set_other, C05_set_effect, C05_set_existing_keeps_shape, C05_get_reads_leaf, C05_set_errors, C05_delimiter_refuted, C05_leading_dot_refuted, C06_replace_subtree, C07_windows, C07_rejects, C07_wide_window_refuted, C08_unknown_names, C08_bijection, C08_negative_stage, C08_stage_out_of_range, C08_all_stages, C08_global_group_refuted, C08_accepts, C09_unflatten_flatten, C09_flatten_unflatten, C09_wrong_length_refuted, C09_array_for_global, C09_scalar_for_group, C10_short_vector, C10_index_agrees_with_unflatten, C10_group_indices, C10_group_contiguous, C10_group_all_stages, C10_stage_array, C11_interval_tensor, C12_offset_entries, C12_offset_distinct, C12_stack_agrees, C12_stack_slots, C30_call, C30_combine, C30_round, C30_outputs, C30_interrupted_round_refuted, C31_set, C31_set_get, C31_get_set, C31_extra_ignored, C31_failed_mixed, C31_algebra_restores, C31_not_atomic_refuted, C32_registry, C32_build, C32_submodels, C32_default, C32_constructor, C32_recursive_class_refuted, C33_make_vector, C33_round_trips, C33_positions, C33_positions_injective, C33_checked_names, C33_const_dict, C33_full_names, C34_jacobian_structure, C34_hessian_structure, C36_block_restores, C36_lexical, C36_lexical_unique, C36_object, C36_decorator_refuted, C37_lmap, C37_lmap_tuple, C37_axes_checked, C37_cmap_history, C37_empty_batch, C37_empty_twice_refuted, C37_mixed_outputs, C38_no_attribute, C40_is_casadi, C40_roll_rows_refuted, C40_split_list, C40_split_int, C40_split_empty_refuted, C45_const_curv_width_refuted, C47_value_text, C47_total, C47_values, C47_constants, C47_comments_refuted, C49_layers_round_trip, C49_constant, C49_only_layers, C50_hessian_refuted, C50_group_alias_refuted, C50_failed_construction_refuted, C57_length, C57_reshape, C57_reshape_refuted, C58_locked, C58_library_kept, C58_library_decides, C58_alone, C58_killed_link_refuted, C58_race_refuted, C58_race_poisons_refuted, C58_same_model_refuted, C58_params, C58_export, C58_failed_build_refuted, C58_same_model_file, C59_custom_batch_refuted, C62_consistent, C62_user, C62_new, C62_modify, C62_history, C62_constraints, C62_set_exact, C62_copy, C62_example, C62_shared_refuted, C65_compiled, C65_vectors, C65_square, C65_matrix_refuted, C65_unmixed, C65_cube_refuted, C66_shared, C66_casadi, C66_leak_refuted, C66_leak_new_refuted, C66_recover, C66_second_refuted, C66_late_trace_refuted, C66_batch_refuted, C66_custom_refuted, C68_arrays, C68_errors, C68_get, C68_apply, C68_apply_arrays_refuted, C68_num_con_outputs_refuted, C73_zero_steps, C73_backends

* `ClassicalDedekindReals.sig_forall_dec`: C28_dotted_name_refuted, C34_residual, C35_constraints, C35_multipliers_checked, C35_short_mesh, C37_cmap, C37_unmapped_first_refuted, C39_row_contents, C40_diff, C40_diff_refuted, C40_roll_one, C40_roll_refuted, C40_roll_zero_refuted, C40_stack, C40_stack_rejects, C40_split_list_refuted, C49_layer_order_refuted, C57_dot_rejects, C57_outer_refuted, C57_cross_vectors, C57_cross_rows, C57_cross_columns, C57_cross_axis, C57_cross_axis_refuted, C57_concatenate, C57_concatenate_rejects, C57_stack_refuted, C57_array, C57_array_rows, C57_split_sections, C57_split_indices, C57_split_join, C57_split_refuted, C57_diag, C65_rows, C67_structure, C67_consistent, C67_last_iterate, C67_last_refuted, C73_arrays_refuted

* `ClassicalDedekindReals.sig_forall_dec`, `ClassicalDedekindReals.sig_not_dec`, `Classical_Prop.classic`, `FunctionalExtensionality.functional_extensionality_dep`: C20_integration_exact, C22_lgr_integral, C22_polynomial_exact_lgr_integral, C22_constants, C40_trig, C40_geomspace_linear, C40_geomspace_refuted, C40_logspace, C40_spacing_one, C41_loads, C41_drive, C41_wheels, C41_tires, C41_newton, C41_residuals, C41_energy, C41_symmetry, C41_slip_refuted, C45_from_points, C45_rigid_motion, C45_scale, C45_mirror, C45_straight, C45_circle, C45_start_curvature_refuted, C45_track_from_points, C45_points_refused, C45_curvilinear, C46_friction_ellipse, C46_signs, C46_symmetry, C46_overload_refuted, C46_peak_refuted, C48_free_fall, C49_gp, C52_solve, C52_on_track, C52_accepts, C52_guess, C52_default, C52_derivatives, C52_cyclic, C52_cyclic_refuted, C54_solve, C54_forward, C54_default_car, C54_default, C54_accepts, C54_error, C55_missing, C55_equations, C55_mode, C55_mirror, C55_forces, C55_pure, C55_bound, C55_stiffness, C55_peak, C55_zero_load_refuted, C55_default_defined, C55_reversed_refuted, C55_outputs, C57_arctan2d, C57_arctan2d_origin, C57_vehicle, C59_cycloid, C59_fastest, C59_first_arch_exists, C59_root_refuted, C59_straight, C59_rise_refuted, C59_faster_refuted, C61_converges, C61_refines, C61_lap_time, C61_cycloid, C61_cycloid_ride, C63_arithmetic, C63_check, C63_uniform, C63_uniform_lgr, C63_user, C63_user_lgr, C63_scaled_mesh, C63_scaled_uniform, C63_given_to_solver, C63_solution, C63_user_gap_refuted, C63_fixed_refuted, C63_collapse_refuted, C64_callbacks, C64_objective, C64_same_point, C64_pow2, C64_unscaled, C64_continuity, C64_tolerance, C64_order_refuted, C65_mlp_refuted, C65_gp_refuted, C70_tire, C70_vehicle, C70_on_track, C70_standstill_refuted, C70_default, C70_default_perantoni, C70_bounds_refuted, C72_equations, C72_lap, C72_default, C72_guess, C72_standstill_refuted, C73_converges, C74_equations, C75_forces, C75_open, C75_default, C75_kink_refuted, C76_equations, C76_perantoni, C76_mf52, C76_default, C76_lap, C76_guess

* `ClassicalDedekindReals.sig_forall_dec`, `ClassicalDedekindReals.sig_not_dec`, `FunctionalExtensionality.functional_extensionality_dep`: C21_roots_exist, C21_points, C21_lg_points, C21_stage_points, C22_lgr, C22_polynomial_exact_lgr, C23_mesh, C23_collocation_points, C24_entries, C24_blocks, C24_trapezoidal, C25_jacobian, C25_hessian, C25_fixed_mesh_linear, C26_lower_le_upper, C26_history, C26_values, C26_direct, C27_variables, C27_accepts, C27_continuity, C27_algebra, C27_condensed, C28_variables, C28_values, C28_jacobian, C29_equivalence, C29_full_to_condensed, C29_jacobian, C29_jacobian_values, C29_multipliers, C29_hessian, C29_applies, C40_rotation_2D, C40_rotation_3D_unit, C40_rotation_3D, C40_cosspace, C40_rotation_3D_rodrigues, C40_rotation_3D_vertical, C41_rotation, C42_time_scaled, C42_time_fixed, C42_penalty_rejects, C42_penalty_value, C42_penalty_derivatives, C44_distance_domain, C44_time_domain, C44_time_increases, C44_on_track, C44_order, C44_arrays, C45_heading_is_integral, C45_positions, C45_curvilinear_unique, C45_return_refuted, C46_defaults, C48_newton, C48_energy, C48_hover, C48_default_gravity, C49_mlp, C49_mlp_odd, C49_mlp_layers, C49_mlp_shape, C49_names, C49_missing_input, C51_solve, C51_accepts, C51_derivatives, C51_remesh_refuted, C52_config, C52_gap_refuted, C53_solve, C53_config, C53_accepts, C53_guess, C53_total_time, C53_slow, C53_too_heavy, C53_derivatives, C54_backwards_refuted, C56_solve, C56_full, C56_accepts, C56_derivatives, C56_config_refuted, C56_sparsity_refuted, C57_norm_vector, C57_norm_matrix, C57_norm_axis, C57_norm_refuted, C59_custom_jacobian, C59_custom_hessian, C59_custom_exact, C59_custom_con_refuted, C59_solve, C59_accepts, C59_energy, C59_energy_bound, C59_distance, C59_distance_energy, C59_distance_names, C60_ocp_derivatives, C60_condensed_derivatives, C60_brachistochrone, C60_brachistochrone_agree, C70_default_tire, C70_kinematics, C71_derivatives, C71_jax_derivatives, C74_aero

* `ClassicalDedekindReals.sig_forall_dec`, `FunctionalExtensionality.functional_extensionality_dep`: C13_history, C13_history_independent, C13_inplace_scale_refuted, C13_fresh_objective, C14_scaled_jacobian, C14_scaled_hessian, C14_scaled_objective, C14_default_structure, C15_names_unique, C15_add_constraints, C15_add_objective, C15_delete, C15_counts, C15_objective_size_unchecked_refuted, C16_constraints_concat, C16_jacobian_stack, C16_jacobian_exact, C16_gradient, C16_empty, C17_hessian_assembly, C17_lagrangian_hessian, C17_stale_mask_refuted, C18_bounds, C18_feasible, C18_optimum, C18_solve, C18_negative_scale_refuted, C18_constraint_bounds_refuted, C19_cached_equals_uncached, C19_hessian_exact, C19_nonlinear_refuted, C20_kronecker, C20_interpolation_exact, C20_differentiation_exact, C22_forward_euler, C22_trapezoidal, C22_polynomial_exact_euler, C22_polynomial_exact_trapezoidal, C22_trapezoidal_cubic_refuted, C22_make, C22_make_result, C23_accepts, C23_history, C23_scaled, C23_inexact_ends_refuted, C23_zero_intervals, C26_bound_config, C26_set_accepts, C26_update_not_atomic_refuted, C26_rejected_bc_sticks_refuted, C26_set_rejects, C27_failed_call_refuted, C28_all_excluded_refuted, C34_residual_zero, C34_jacobian_complete, C34_hessian_complete, C35_derivatives, C35_mesh_dependence_refuted, C35_overlap_refuted, C38_roundtrip, C38_bounds_validated, C38_bounds_from_dicts, C38_objects, C38_defaults, C38_logging_refuted, C38_mixed_refuted, C38_list_refuted, C39_solve, C39_solver_run, C39_history, C39_metrics, C39_second_solve_refuted, C39_history_refuted, C39_violation_row_refuted, C39_mesh_column_refuted, C39_failed_solve, C39_no_point, C39_failed_leftover_refuted, C40_sum, C40_mean, C40_mean_none, C40_mean_none_refuted, C40_interp, C40_trapz, C40_trapz_total, C40_clip, C41_brakes, C43_exact, C43_shift, C43_bad_arguments_refuted, C44_vehicle_in_time, C45_trapz, C45_lookups, C45_default_width, C45_const_curv, C46_load, C50_construct, C50_bounds, C50_scales, C50_objective, C50_solve, C50_second_solver_refuted, C51_mesh_scale_unchecked_refuted, C56_dots, C56_params_refuted, C57_elementwise, C57_broadcast_refuted, C57_not_abs, C57_all_any, C57_where, C57_dot, C57_dot_refuted, C57_outer, C57_neutral, C60_jax_exact, C60_backends_agree, C67_gradient, C67_jacobian, C67_hessian, C67_stale_refuted, C69_as_if_copied, C69_others_untouched, C69_scales_in_step, C69_one_constraint_two_problems_refuted, C69_rescaling_the_other_problem_refuted, C69_writing_to_scales_refuted, C69_default_scales_refuted, C71_jax_exact, C73_rollout, C73_refused, C73_transcription

