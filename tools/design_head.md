# Formal model of numagic/lumos in Rocq (Coq 8.16.1)

## 1. Approach

* Small total Gallina functions; a Python exception is a value of a `result` type (`Ok v` / `Raise e`); objects that are mutated are
  records, methods return the new record.  Where a method can fail half-way the model keeps what was already changed, and this is
  what the "not atomic" findings are about.
* Dictionaries are insertion-ordered association lists with Python's semantics (`dset` keeps the position of an existing key).
  Strings are Coq strings.
* Structural / index code (trees, decision variable layout, sparsity structures, batching, registries, logging, backends) is
  modelled over an arbitrary element type or over nat/Z.
* Numeric code (constraints, jacobians, scaling, collocation, mesh, forces, tracks, tires) is over the standard library's reals `R`.
  **Floating point rounding, NaN and overflow are not modelled.**
* Derivative claims use the standard library's `derivable_pt_lim` coordinate by coordinate (`pderiv`), so "is the exact jacobian"
  does not mention the model's own derivative code.
* External code (jax/CasADi automatic differentiation, `numpy.roots`, cyipopt, file system, directory listing order, `str(float)`)
  is an oracle: a Section variable, hence a universally quantified argument of the theorem, with hypotheses where the code relies on it.

Files: `theories/<Area>Model.v` (definitions, every one cited by file:lines), `<Area>Spec.v` (independent specification, where the
statement needs vocabulary), `<Area>Proofs*.v` (lemmas), `<Area>Props*.v` (property theorems `Cnn_...`, each followed by
`Print Assumptions`; an `Example Cnn_nonvacuous` showing a concrete case that meets the hypotheses; `..._refuted` theorems are
findings: a proved counterexample to what one would expect).

## 2. Properties: model and proof

| Id | What is modelled | How it is proved |
|----|------------------|------------------|
| C01-C06 | `models/tree_utils.py`: rose trees with association-list children, `to_dict`/`from_dict`, dotted flat dictionaries, pytree flatten, ravel with shapes, get/set/replace by path (TreeModel) | nested induction; split/join lemmas, key injectivity, lens laws |
| C07-C12 | `optimal_control/utils.py`: `batch_conv1d`, `DecVarOperator`, offset structures (UtilsModel) | div/mod index arithmetic, list lemmas |
| C13-C17 | `nlp.py` constraint/objective objects and `CompositeProblem` as state machines; COO matrices denote functions (NlpModel) | invariant over all operation lists; chain rule with `derivable_pt_lim` |
| C18 | `solve` around an arbitrary optimizer oracle | order reasoning in R |
| C19 | `LinearConstraints` with cache | invariant over histories |
| C20-C22 | Lagrange/Legendre collocation, transcriptions over R (CollocModel) | polynomial root counting, mean value theorem, antiderivatives |
| C23-C25 | mesh, continuity constraints, their hand-written jacobian and hessian (MeshModel, OcpModel) | sums, partial derivatives coordinate by coordinate |
| C26-C28 | bounds / boundary conditions / scales / cyclic constraints of the OCP (BoundModel, ScaleModel, CyclicModel) | refinement of "last accepted call" over all histories |
| C29 | condensed problem (CondModel) over an arbitrary model algebra; instantiated with the algebra of C34 | substitution, chain rule, second derivatives |
| C30-C34 | composite models: call protocol, recursive parameters, registry, named vectors, model algebra and its structures (CompModel, IoModel, AlgModel) | tree induction, list/permutation lemmas |
| C35 | `ConvConstraints`, `MappedConstraints` (ConvModel) | COO denotation, sums over windows |
| C36, C37 | backend context managers, `lmap`/`cmap` (NumpyModel) | induction over programs; cache invariant |
| C38 | `SimConfig`, `BoundConfig` (CfgModel) | case analysis, induction over tuples |
| C39 | logging machine with a file map and an arbitrary listing order (LogModel) | invariant over the callback sequence and over solves |
| C40 | `numpy/casadi_numpy.py` (CasModel) vs a specification of numpy (CasSpec) | induction; witnesses for the wrong ones |
| C41 | `SimpleVehicle` forces (VehModel) | field / linear arithmetic, power balance |
| C42 | objectives and gradients | partial derivatives of finite sums |
| C43 | Fornberg finite differences (FdModel) | recurrence on the grid, uniqueness by a Vandermonde argument on polynomials |
| C44 | track kinematics (KinModel) | derivatives of compositions, chain rule in time and distance |
| C45 | race tracks: interpolation, integration, construction from points (TrackModel) | list induction, integrals, rotation algebra |
| C46 | Perantoni tire (TireModel) | real analysis of sin/atan |
| C47 | `.tir` file reader on strings (TirModel) | induction over characters and lines |
| C48 | drone dynamics (DroneModel) | derivatives along motions |
| C49 | mlp / gp aero maps (AeroModel) | induction over layers, tanh and exp bounds |
| C50 | `ModelSolver` (SolverModel) on top of NlpModel and AlgModel | the state is a function of the accepted calls; C18 and C34 composed |
| C51 | the whole of ScaledMeshOCP / FixedMeshOCP (BuildModel) on top of the models of its pieces | invariant of the history; the pieces' theorems (C08, C18, C23-C28, C34, C35, C42) composed |
| C52 | LaptimeSimulation (LapModel) on top of BuildModel and TrackModel; the vehicle model is any model | a lap history is a history of the fixed-mesh problem (`expands`); C51, C45, C26 composed |
| C53 | DroneSimulation (FlightModel) and DroneModel on top of BuildModel, not condensed | C51 composed with the drone's equations; `flight` is an elementary specification without vectors or groups; explicit flight and hand-written derivatives as example |
| C54 | SimpleVehicle and SimpleVehicleOnTrack as dictionaries and submodel calls (RaceModel), on top of VehModel, KinModel, IoModel, LapModel | C52 composed with the vehicle; `mechanics` and `drive` are elementary (forces, torques, slips, no vectors or groups); inside the default limits the geometry excludes every zero denominator (tan/PI bounds by hand); example: default car, Perantoni tires, constant aero, coasting on a straight road |
| C55 | MF52 tire (PacModel): every function of pacejka.py over the reals, divisions by zero as undefined values, parameter dictionary with missing keys; default coefficients generated from the source | `mf52` states the textbook equations as relations without division by zero (cos(atan x) as 1/sqrt, sin(2 atan x) rationally); mirror symmetry function by function; extrema by the intermediate value theorem, slope with a curvature that jumps at 0 by hand; definedness of the default tire by bounds on atan, sqrt, PI |
| C56 | ScaledMeshOCP with is_condensed=True from the configuration to `solve` (CBuildModel on BuildModel and CondModel): constructor with the bounds it adds, the two stored constraints and their parameters, the structure guessed at a random vector, the calls | C29 composed with C51: a condensed history is that of a full problem with added bounds (`twin`), whose constraints are exchanged; feasibility and optima in the vocabulary of C51 (`trajectory`, `best`) with the derivative variables existentially quantified (`same_elsewhere`); derivatives by a jacobian stack with missing entries (`masked`) |
| C57 | the other functions of `numpy/casadi_numpy` (LnpModel) and `SimpleVehicle.forward` on CasADi matrices (CasVehModel) vs numpy's broadcasting, concatenation, products (LnpSpec) and the vehicle of C41 (VehModel) | case analysis on shapes, induction on lists of blocks; each vector operation of the vehicle preserves `is3` |
| C58 | the build of `_make_casadi_model_algebra_cons` as a program counter over file operations, any number of processes in one directory, kills and compiler deaths as events (ArtModel); `export_c_code` on the models of C31 | invariants along schedules (each build owns the C file; existing libraries stay), induction on the schedule from the right; witnesses for all pairs of models |
| C59 | `examples/brachistochrone.py`: reference solution, both models, hand-written derivatives, the time-domain problem on top of the model of C51 (BrachModel); rides as continuous functions that obey the model except at finitely many instants (BrachSpec), slides of the trapezoidal rule (BrachSpec2) | optimality by an isoperimetric inequality: a monotone angle function along any ride bounds the distance by the time; derivatives entry by entry; trajectories = slides as in C53; the energy by induction on the points |
| C60 | the jax path of the model algebra: Lagrangian, extraction of the declared positions, the model with these derivatives (JaxModel); jax.jacobian and jax.hessian are oracles with the assumption `autodiff_ok`, twice differentiable models are stated on `forward` (JaxSpec) | every row of the residual is a function of the first components minus a coordinate, so it has a hessian; outside the declared structure the derivatives are 0 by C34; composed with C51 and C56; the oracles are shown to exist (with Coquelicot's Derive, in an example only) |
| C61 | nothing new is modelled: trajectories (BuildSpec) of the transcriptions (CollocModel); motions in continuous time, Lipschitz models and orders are specified in OrderSpec | each transcription is brought to the form x_j = x_0 + h sum a_jk f_k, exact for polynomials of its order (LGR through its interpolant); Taylor expansion with mean value theorem for the local error, a fixed point estimate in every interval, induction over the intervals |
| C62 | ShareModel: nodes and dicts as objects on a heap (references, mutation in place), the tree operations, set/get_recursive_params with their copies, what constraints keep (live tree or flat array), programs as event lists | an ownership colouring of the heap closed under references is an invariant of all events; set_param on an unshared tree of objects refines TreeModel.set_param; frame lemma per owner; the effect of set_param is read off the dict object that a path addresses |
| C63 | FloatModel: doubles as reals of Flocq's FLT format (emin -1074, 53 bits), every numpy operation followed by rounding to nearest even: np.linspace as numpy computes it, the checks, LGR rows, lengths, scaled mesh, scaled bounds/guess and unscaled solution. Overflow/NaN not modelled | FloatSpec states doubles and nearest doubles without Flocq; relative error of each operation (sums without underflow condition), Sterbenz for exact differences, exactness of x != y -> x - y != 0, ties to even for the last interval; witnesses computed by a rounding lemma |
| C64 | FsumModel: the scaled callbacks and their setters as an object in doubles; a sum of products as a relation over all orders, groupings and fused operations; one entry of _continuity_constraints. User functions are arbitrary functions on doubles | state after any history by induction; relative error per entry; induction over the derivation of a sum with (1+u)^n - 1 bounded by (n+1)u; exactness for powers of two by format lemmas |
| C65 | CpModel: parameter values that are numpy arrays (C order) or CasADi matrices (column-major), the dispatch of _size, _shape, _ravel, _split, _concat and unravel, and the parameters a compiled function sees (unravel of a CasADi column with the numpy shapes) | chunks of the vector are determined by their lengths; element arithmetic with div and mod; witnesses for MLPAero and GPAero |
| C66 | TraceModel: a world of one model object (parameters that are values or dead tracers, constraint outputs, latest batched forward) and problems with their parameters and functions (compiled, traced on first use per signature, or plain Python); constructing, evaluating, modifying and calling as steps. Reference: TraceSpec.expect_run, in which every problem has its own parameters and constraint outputs | simulation invariant between the world and the reference over all histories; invariants for leaked tracers; witnesses |
| C67 | NfunModel: an NLPFunction object with attributes, the traces kept per derivative and argument shapes, the last iterate (array or dead tracer); jax.grad, jacobian and hessian as oracles assumed to give partial derivatives that exist. NfunSpec: the attributes at the first evaluation, by recursion over the history | invariant relating the kept traces to the history; upper triangle by counting; witness objective k*x |
| C68 | PlainModel: forward_with_arrays of a stateless model (through the make_vector and _array_to_dict of IoModel), get_input/get_output, num_*, and an object whose parameters change with apply_and_... ; forward abstract | case analysis on what forward returns and which names are present; histories by recursion |
| C69 | AliasModel: a heap of arrays, constraint, objective and problem objects with references, the setters that keep an array instead of copying it, both ways of rescaling; AliasSpec: the same calls with values (the functions of NlpModel) and the programs in which no object or array is reused | separation invariant (who may write to which array, which problem holds which object), one footprint lemma for all calls on a problem, induction over programs; staleness invariant on the value side |
| C70 | DomModel: vehicle, Perantoni tire and track kinematics written out once more with checked division and square root (None = not defined); DomSpec: the denominators as quantities of the car, road and driver. Proved: the exact domain in both directions, equality with the unchecked models on it, a region of the default bounds inside it, and points of the bounds outside it. |
| C71 | LocSpec: jacobian, gradient and hessian on a domain with room around every point; within / stays_in carry a domain of states and inputs to all stages of a trajectory. The assembly, scaling, convolution and collocation proofs of C51 again, relative to the domain; LocJaxSpec: the specification of automatic differentiation on a domain (asked at the points of the domain only). |
| C72 | LocCalc: a calculus of second derivatives of closed formulas on a domain (sum, product, quotient, sin, cos, atan, sqrt, composition); LocRaceSpec: the domain of the car in physical quantities. Every formula of VehModel, TireModel, KinModel goes through the calculus; C71 gives the problem; the guess is shown to be inside, and the point at rest is shown to have no derivative. |
| C73 | RollModel: the rollout loop over numbers and, separately, over a heap of arrays (`+=` writes into the caller's cells); the decorator as a fold over backend names with a test body that may change the backend and end in any way. RollSpec: the path of explicit Euler steps, the backend a name stands for. Iff by induction over the steps; convergence from Taylor's formula (C61) and a discrete Gronwall argument; the heap version refines the number version when the cells are distinct. unittest's subTest is taken to record and go on (failfast off). |
| C74 | The calculus of C72 extended to vectors: dot products, matrix products, tanh layers, exp of squared distances; induction over the layers. The submodels of AeroModel are shown to compute a function with second derivatives, which is what C72 asks of the aero model. |
| C75 | LocPacSpec: a smooth point of the tire, in the quantities of PacSpec. The force is rewritten as a closed formula by C55_forces; the calculus of C72 gets the limit min(1, E), the sign away from zero, and the switch at zero slip: gate(x) g(x) is twice differentiable when g and its first two derivatives vanish with x, which is so for z - atan z. Openness from the zero sets of the guards. |
| C76 | LocTireSpec: tires that keep second derivatives on a set of loads and slips with room around it. The layers of C72 are redone with the tire a variable, and the sets of the four wheels are intersected one after the other; the lap theorem is C71 applied to the result. The two tire models are instances (C72, C75), and an example simulation with the default MF5.2 tire meets every hypothesis. |
