
## 3. Trusted base

1. Coq 8.16.1's kernel (no plugin, no native/vm casts beyond the kernel's own, no kernel check switched off), `coqc`, and the
   standard library. No other library is imported (mathcomp, std++, Coquelicot etc. are not used).
2. The axioms of the standard library listed by `Print Assumptions` for each theorem (section 6): the axioms behind the reals
   (`ClassicalDedekindReals.sig_forall_dec`, `ClassicalDedekindReals.sig_not_dec`), `FunctionalExtensionality.functional_extensionality_dep`
   and `Classical_Prop.classic`. No axiom, Parameter, Admitted or open obligation of our own; Section variables are discharged and
   appear as quantifiers.
3. The model is a hand transcription of the Python text; nothing connects the two mechanically. Each definition cites the lines it
   transcribes and says where it simplifies.
4. Semantics of Python, numpy and CasADi primitives as documented (indexing, slicing, broadcasting to the extent used, reshape,
   concatenate, `dict` order, `IntEnum`, `np.split`, ...).

## 4. What is modelled and what is not

Modelled (all under `lumos/`): `models/tree_utils.py`, `models/composition.py`, `models/base.py` (naming, composition, calls, algebra,
structures), `models/{kinematics,tracks,drone_model,ml,simple_vehicle_on_track}.py`, `models/vehicles/simple_vehicle.py`,
`models/tires/{perantoni,pacejka,utils}.py`, `models/aero/aero.py`, `optimal_control/{utils,nlp,convolution,collocation,transcription,
scaled_mesh_ocp,fixed_mesh_ocp,config,model_solver}.py` (including the condensed problem, objectives and logging, which live in
scaled_mesh_ocp.py and nlp.py), `numpy/__init__.py`, `numpy/utils.py`, `numpy/casadi_numpy/*` (the functions named in C40, C43 and C57; not linalg.solve, max and min), and the
objectives of `simulations/laptime_simulation.py`, `simulations/drone_simulation.py`, the file operations of the CasADi build and `export_c_code` (C58), and `examples/brachistochrone.py` (C59; of its distance-domain problem only the model). The exact lines are cited at each definition.

Not modelled: floating point; automatic differentiation and code generation by CasADi/jax (oracles, assumed to return the derivative
where a theorem says "if the pieces are exact"); IPOPT itself; the numeric root finder (`numpy.roots` is assumed to return the real roots
ascending; that they exist and are distinct in (-1,1) is proved, C21); Legendre-Gauss-Lobatto points; plotting and command line; `profile_compile`-style timing code; the names of logging directories (a time stamp: two problems created within one second share
one); multi-threading of `cmap` (order-preserving by contract).

## 5. Findings (proved as `..._refuted`, or visible in the statements)

* C02, C05: parameter names containing "." break or merge; non-default delimiters fail; a leading "." is ignored. C04: arrays of size 1
  come back as scalars, of size 0 raise, short vectors can be accepted.
* C07: windows longer than the sequence are not always rejected. C08: a group called "global" collides. C09: wrong lengths accepted.
* C13: scales are stored by reference. C15: number of inputs of objectives unchecked. C17: hessian uses a stale mask after a change.
* C18: negative scales accepted; constraint bounds are not scaled. C19: "linear" is not checked.
* C23: mesh ends only within 1e-6. C26: `update_bounds` not atomic, a rejected boundary condition sticks. C27: failing `set_scales`
  leaves inconsistent scales. C28: dotted names cannot be cyclic; all-excluded fails late.
* C29: the (scale, scale) entry of the condensed hessian is counted once although the algebra's dependence on the mesh adds to it;
  the jacobian structure is detected at one random point; the constructor mutates the `bounds` of the configuration it is given;
  `modify_model_param` raises AttributeError on condensed problems.
* C30, C31: an interrupted round / a failed `set_recursive_params` leaves partial state. C32: a class containing itself recurses.
* C35: with a mesh-dependent unit problem the mesh scale derivative is missed; overlapping windows count entries twice.
* C36: a context used as a decorator restores the wrong backend. C37: batch size from the wrong argument.
* C38: logging config and lists do not round trip; mixed tuples unvalidated. C39: only status -13 counts as failure; leftovers of a
  failed solve are merged; history never cleared; mesh column wrong with a scaled mesh scale; second solve may lose its first record.
* C40: `diff` above order 1, `roll` other than by 1, `mean` of a matrix, `geomspace`, `split` corner cases differ from numpy.
* C41: the slip ratio is computed from the speed of the centre of gravity, not of the wheel.
* C43: bad arguments return an exception object. C45: curvature at the start of a track at most half the true one on a circle;
  `ConstCurvTrack` has no track width. C46: forces reverse above 22.57 kN; the peak is not at the documented slip.
* C47: comment lines with "=" are read as data, values may come from comments. C49: layers taken in dictionary order.
* C50: `hessian` of a ModelSolver always raises KeyError; dotted group aliases accepted; a second solver on the same model breaks
  `set_var_scale` of the first; a failed construction leaves the model's constrained outputs changed.
* C51: `set_normalized_mesh` after construction leaves the model algebra on the old mesh positions (C51_remesh_refuted); `set_mesh_scale` accepts any value (C51_mesh_scale_unchecked_refuted).
* C45: where the points return to the point before the last, the finite difference speed is 0 and the curvature 0/0 (C45_return_refuted).
* C52: in a cyclic lap `track_curvature` is cyclic and fixed at both ends: infeasible on a road whose end curvatures differ (C52_cyclic_refuted; the comment in the code says `close, ~1e-5 delta`); the default boundary conditions are those of the cyclic case although `is_cyclic` defaults to False (C52_config; FIXME in the code); the closing segment of a closed track is not part of the lap (C52_gap_refuted); `LTCConfig.__post_init__` appends to the list the caller passed as `non_cyclic_vars` (visible to the caller; lists are values in the model).
* C54: the default limits on states and inputs alone admit a car sliding backwards along the road, where dt/ds < 0 (C54_backwards_refuted); only the slip limits together with the geometry of a sensible car exclude it.
* C55: at zero load both forces are 0/0 for every tire: `epsilonx * sign(Dx)` is 0 with Dx (C55_zero_load_refuted); at the largest load and slip angle of the default tire the weight Gxa, `(> 0)` in the comment, is negative and reverses the longitudinal force (C55_reversed_refuted).
* C56: building a condensed problem appends bounds to the caller's configuration object; a full problem built from the same object afterwards has no feasible point (C56_config_refuted). Changing model parameters raises AttributeError after the new parameters are already stored, so that chain rule and constraints disagree (C56_params_refuted). Bounds of the configuration on the derivative variables are silently overridden by 0 (C56_solve, C56_dots). The structure of the jacobian is that at one normally distributed vector; the comment calls the risk of missing entries low, but for x' = max(0, u)^3 an entry is lost whenever the random u is not positive, and IPOPT is told 0 for a derivative of -3 (C56_sparsity_refuted).
* C57: in the CasADi layer, `norm` with any order but 1, 2 or "fro" is a NameError (`np` is not imported in linalg.py) and with axis=-1 a ValueError from `sum` after its own check accepted -1 (C57_norm_refuted); orders 1 and 2 of a matrix are entry-wise; `dot`/`inner` of matrices are the sum of entry products (C57_dot_refuted), `outer` of two rows is 1 x 1 (C57_outer_refuted); `cross` with axis=1 of a 3 x n matrix works along axis 0 (C57_cross_axis_refuted); rows are not broadcast, blocks are repeated where numpy raises (C57_broadcast_refuted); `concatenate(axis=-1)` raises, `hstack`/`vstack` of vectors have other shapes (C57_stack_refuted); `split` ignores tuples of indices and ends in UnboundLocalError for axis=-2 (C57_split_refuted); `reshape` is column-major (C57_reshape_refuted).
* C58: the library cache is keyed by the hash of a shared file and trusted by name: a kill while linking disables the model for good (C58_killed_link_refuted), two processes in one directory can exchange or permanently poison their compiled models (C58_race_refuted, C58_race_poisons_refuted, C58_same_model_refuted), and a failed build or export leaves CasADi symbols as parameters (C58_failed_build_refuted).
- C59 `C59_rise_refuted`, `C59_faster_refuted`: the trapezoidal problem of the brachistochrone example accepts rides that end above their start and rides that are faster than the brachistochrone (its energy error is `C59_energy`).
- C59 `C59_root_refuted`: `cycloid` takes whatever root `newton` finds; other roots give a wrong time.
- C59 `C59_custom_con_refuted`, `C59_custom_batch_refuted`: the hand-written jacobian misses the row of a constrained output; `batched_forward` of the backend "custom" raises IndexError for every batch (so condensed problems with a free mesh scale and result logs cannot use it). `solve_brachistochrone` ignores its `backend` and `is_condensed` arguments (read off the source: brachistochrone.py:265-318).
- C59 `C59_distance_energy`: the 1e-9 of the distance model changes the energy at a known rate.
- C62 `C62_shared_refuted`: the example script puts one dict object into the four tire nodes; a later `set_param` on one tire of that tree changes all four (problems built from it are not affected).
- C63: in doubles, user-given interval points with LGR need not be mesh points and intervals need not join: for 0, 0.2, 0.9, 1 the second interval ends at 0.8999999999999999 and the third starts at 0.9 (C63_user_gap_refuted; the default mesh always joins, C63_uniform_lgr). A variable fixed to 0.9 with scale 10 is returned as 0.8999999999999999, outside its bounds (C63_fixed_refuted). Scaling can merge two distinct mesh points (C63_collapse_refuted).
- C64: the computed continuity defect depends on the order in which einsum adds: for the same states one order gives 0 and another 2^-52 (C64_order_refuted), so two installations may disagree in the last digits about feasibility; C64_continuity bounds the difference for every order.
- C65: with CasADi every matrix parameter is read in the wrong order: tree_ravel flattens numpy matrices row by row, and the unravel that the compiled functions are built on reshapes column by column. GPAero and MLPAero therefore use other weights with CasADi than with jax; square layers are transposed (C65_mlp_refuted, C65_gp_refuted, C65_matrix_refuted). Scalars and vectors, so all other models in the repository, are not affected (C65_vectors). Three-dimensional parameters cannot be compiled (C65_cube_refuted).
- C66: make_model_algebra_cons restores the parameters after building ("some backends would replace model params with ... tracers during tracing"), but jax traces later, on first evaluation, and nothing restores them then: after solving a jax problem the model holds dead tracers, model.forward fails and a second problem on the same model cannot be evaluated (C66_leak_refuted, C66_leak_new_refuted, C66_second_refuted). The constraint outputs a jax problem uses are those the model has at first evaluation (C66_late_trace_refuted); batched_forward is the latest problem's (C66_batch_refuted); custom problems overwrite the model's parameters at each evaluation (C66_custom_refuted).
- C67: NLPFunction jits its derivatives with self as a static argument: attributes are baked in at the first evaluation, so a subclass whose objective has a parameter gets stale derivatives after changing it (C67_stale_refuted), and tracing the hessian goes through objective(), which stores the tracer as the last iterate (C67_last_refuted).
- C68: Model.apply_and_forward_with_arrays calls self.forward_with_array (no such method; forward_with_arrays exists), so it fails for every stateless model, after having set the parameters (C68_apply_arrays_refuted); Model.num_con_outputs raises AttributeError, a ModelIO has no con_outputs (C68_num_con_outputs_refuted).
- C69: add_constraints/add_objective keep the object and push the problem's scale array into it, so a constraint object used in two problems works in the scales of whichever was scaled last (C69_one_constraint_two_problems_refuted, C69_rescaling_the_other_problem_refuted); set_con_scales keeps the caller's array but derives the jacobian scales once, so a later write to the array makes the jacobian wrong (C69_writing_to_scales_refuted); set_default_scales of a problem that has pieces does not tell them (C69_default_scales_refuted).
- C70: the default bounds of the laptime simulation contain points where the model divides by zero (C70_bounds_refuted): the heading error may reach 45 degrees and vy 10 m/s at vx = 8 m/s, so the speed along the road can vanish; with vx = 5, vy = 10 and a yaw rate of 4.4 rad/s a steered front contact patch stands still; and ax, ay are unbounded, so a wheel load can be zero (MF52 divides by it) or reach 38000 N (Perantoni's peak slip angle is extrapolated to zero). A car at rest has no derivatives (C70_standstill_refuted).
- C71, C72: C51 and C60 assume a model that is differentiable at every point; no vehicle is (C72_standstill_refuted: the slip ratio divides by the forward speed, whatever the parameters and submodels). C71 and C72 replace the assumption by the domain of C70, so for the car they hold without an unmeetable hypothesis. The initial guess of the simulation is inside the domain (C72_guess), but nothing in the code keeps IPOPT there (C70_bounds_refuted).
- C73: `_forward_euler` says it does not modify the initial states, but copies only the dictionary: with arrays as values `+=` writes into the caller's arrays, which end up holding the final states (C73_arrays_refuted). The outputs it returns are those of the state one step before the one it returns (C73_rollout), and zero steps is an UnboundLocalError. `use_backends(["jxa"])` runs the test under the backend in force, since set_backend only logs an unknown name (C73_backends).
- C74: the simple vehicle hands its aero model the forward speed as front_ride_height, the lateral speed as rear_ride_height and the yaw rate as yaw (simple_vehicle.py:195), so an aero model other than the constant one is evaluated at quantities it was not trained on. The theorems follow the code.
- C75: the curvatures of MF5.2 are limited by min(1, E), which gives kinks in the load. For the default tire one is at 3249 N (REX1 + REX2 dfz = 1), an ordinary wheel load, and one near 17340 N: at the first there are a longitudinal slip and a slip angle for which the longitudinal force has no derivative in the load (C75_kink_refuted); between them the forces are smooth (C75_default).
- C76: the tires are asked about the camber 0 only, which is what the simple vehicle gives them (simple_vehicle.py:287). A wheel load may reach 3249 N within the bounds on the inputs of the laptime simulation (assumed accelerations are unbounded), so the domain of C76_default, like that of C72, is not one that the solver is kept in.

## 6. Print Assumptions, theorem by theorem

