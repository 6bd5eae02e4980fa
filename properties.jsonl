{"id": "C01", "title": "Parameter trees survive conversion to nested dictionaries", "statement": "For every ParameterTree/ConfigTree t, from_dict(t.to_dict()) is a tree with the same data at every node and the same children in the same order; and to_dict(from_dict(d)) = d for every well-formed nested dictionary d.", "quantifier": "all trees (any depth, any branching, any leaf values) with distinct sibling names", "why_tests_cant": "trees are unboundedly deep and wide; a test only tries a handful of shapes", "anchors": ["lumos/models/tree_utils.py:Tree.to_dict", "lumos/models/tree_utils.py:Tree.from_dict", "lumos/models/tree_utils.py:Tree.add_child"]}
{"id": "C02", "title": "Parameter trees survive flattening to a dotted-key dictionary", "statement": "For every ParameterTree whose child names are non-empty and whose names and parameter keys contain no '.', flattening never merges two parameters (every parameter gets its own dotted key), and from_flat_dict(tree_def, flat) rebuilds exactly the original tree; more generally rebuilding with the same keys and other values yields the tree of the same shape holding those values. Without the no-'.' condition the round trip can fail (a parameter key containing '.' raises KeyError).", "quantifier": "all trees, all keys and names without '.', all replacement leaf values", "why_tests_cant": "the key space is infinite; collisions between dotted paths only appear for specific name combinations", "anchors": ["lumos/models/tree_utils.py:Tree.to_flat_dict", "lumos/models/tree_utils.py:Tree._make_flat_dict", "lumos/models/tree_utils.py:Tree._make_tree_def", "lumos/models/tree_utils.py:Tree.from_flat_dict", "lumos/models/tree_utils.py:Tree._set_leaf"]}
{"id": "C03", "title": "ParameterTree obeys the JAX pytree laws", "statement": "tree_unflatten(aux, leaves) after (leaves, aux) = tree_flatten(t) gives back t; tree_flatten(tree_unflatten(aux, leaves')) = (leaves', aux) for every list leaves' of the right length; in particular aux depends only on the shape of the tree and not on its leaves (no recompilation on value changes).", "quantifier": "all well-named trees and all replacement leaf lists of the right length", "why_tests_cant": "jax transforms call unflatten with arbitrary tracers/values; the law is over all leaves", "anchors": ["lumos/models/tree_utils.py:ParameterTree.tree_flatten", "lumos/models/tree_utils.py:ParameterTree.tree_unflatten"]}
{"id": "C04", "title": "Raveling parameters to one vector is invertible", "statement": "For every well-named ParameterTree whose leaves are scalars or arrays with more than one element, tree_ravel gives a vector whose length is the sum of leaf sizes, unravel(ravel(t)) = t, and ravel(unravel(v)) = v for every vector v of that length. A leaf of shape (1,) comes back as a scalar and a leaf of size 0 makes unravel raise IndexError.", "quantifier": "all trees, all leaf shapes, all vectors of the right length", "why_tests_cant": "quantifies over all shapes and all vectors; corner shapes are exactly what tests miss", "anchors": ["lumos/models/tree_utils.py:ParameterTree.tree_ravel", "lumos/models/tree_utils.py:_ravel_flat_dict"]}
{"id": "C05", "title": "Setting one parameter changes that parameter only", "statement": "After set_param(path, v) succeeds, get_param(path) returns v, get_param of every other path is unchanged, and the tree shape is unchanged except for a possibly new key in one node; set_param/get_param with a path through a missing child raise KeyError. With a non-default delimiter, any path with two or more child names raises KeyError although the path exists.", "quantifier": "all trees, all dotted paths, all values", "why_tests_cant": "non-interference is over all pairs of paths", "anchors": ["lumos/models/tree_utils.py:ParameterTree.get_param", "lumos/models/tree_utils.py:ParameterTree.set_param", "lumos/models/tree_utils.py:Tree._set_leaf", "lumos/models/tree_utils.py:Tree._get_subtree"]}
{"id": "C06", "title": "Replacing a subtree is local and never creates a child", "statement": "replace_subtree(path, s) succeeds exactly when path names an existing node; afterwards the node at path is s and every node whose path does not start with path is unchanged; otherwise it raises KeyError and the tree is unchanged.", "quantifier": "all trees, all paths, all replacement subtrees", "why_tests_cant": "locality is a universally quantified frame property", "anchors": ["lumos/models/tree_utils.py:Tree.replace_subtree"]}
{"id": "C07", "title": "Batching a sequence into overlapping windows", "statement": "batch_conv1d(x, width, stride) with stride >= 1 and stride <= width <= 2*stride returns B = (len-width)/stride + 1 windows with window b, position w equal to x[b*stride + w]; for a sequence at least as long as the window it succeeds exactly when (len-width) is a multiple of stride and width is in [stride, 2*stride], and raises otherwise. Finding: a window longer than the sequence is not always rejected and then a short window is returned.", "quantifier": "all sequence lengths, widths, strides and element types", "why_tests_cant": "index arithmetic over all sizes", "anchors": ["lumos/optimal_control/utils.py:batch_conv1d"]}
{"id": "C08", "title": "Decision-variable indices form a bijection", "statement": "The map (group, name, stage) -> get_var_index_in_dec, together with ('global', name), is a bijection from all stage variables at all stages and all global variables onto range(num_dec): no two variables share a slot and no slot is unused. A negative stage s addresses stage num_stages+s; a stage outside [-num_stages, num_stages-1] raises ValueError.", "quantifier": "all group layouts, numbers of intervals, stages per interval and global names", "why_tests_cant": "sizes are unbounded; an aliasing only shows for specific layouts", "anchors": ["lumos/optimal_control/utils.py:DecVarOperator.get_var_index_in_dec", "lumos/optimal_control/utils.py:DecVarOperator.num_stages", "lumos/optimal_control/utils.py:DecVarOperator.num_dec"]}
{"id": "C09", "title": "Flattening decision variables is invertible", "statement": "unflatten_var(flatten_var(vars)) = vars for every set of correctly shaped group arrays and globals, and flatten_var(unflatten_var(x)) = x for every vector x of length num_dec.", "quantifier": "all layouts, all values", "why_tests_cant": "must hold for every size and every vector the solver produces", "anchors": ["lumos/optimal_control/utils.py:DecVarOperator.flatten_var", "lumos/optimal_control/utils.py:DecVarOperator.unflatten_var"]}
{"id": "C10", "title": "Indexing and unflattening agree", "statement": "For every vector x of length num_dec: x[get_var_index_in_dec(g,n,s)] equals unflatten_var(x).g[s][index of n]; get_group_indices_at_stage lists exactly the indices of the group's variables in order; get_group_indcies_in_dec is their concatenation over stages; get_stage_var_array(x)[s] is the s-th block.", "quantifier": "all layouts, groups, names, stages, vectors", "why_tests_cant": "two independently written index computations must agree for all sizes", "anchors": ["lumos/optimal_control/utils.py:DecVarOperator.get_var", "lumos/optimal_control/utils.py:DecVarOperator.get_group_indices_at_stage", "lumos/optimal_control/utils.py:DecVarOperator.get_group_indcies_in_dec", "lumos/optimal_control/utils.py:DecVarOperator.get_stage_var_array"]}
{"id": "C11", "title": "Interval tensors share their end stages", "statement": "get_interval_tensor(x, g) has num_intervals windows of num_stages_per_interval stages; window i position j is group g at stage i*(m-1)+j, so the last stage of an interval is the first stage of the next one and every stage is covered.", "quantifier": "all num_intervals >= 1, m >= 2, layouts and vectors", "why_tests_cant": "must hold for all mesh sizes", "anchors": ["lumos/optimal_control/utils.py:DecVarOperator.get_interval_tensor", "lumos/optimal_control/utils.py:batch_conv1d"]}
{"id": "C12", "title": "Block offset sparsity structures do not collide", "statement": "create_offset_structure places block k's entry e at (row_e + k*row_offset, col_e + k*col_offset); if base entries are distinct with rows below row_offset then all produced entries are distinct and lie in the expected ranges; stack_and_increment(x, axis 0/-1, n, inc) holds x + k*inc in slot k and agrees with create_offset_structure.", "quantifier": "all base structures, offsets and block counts", "why_tests_cant": "unbounded sizes", "anchors": ["lumos/optimal_control/utils.py:create_offset_structure", "lumos/optimal_control/utils.py:stack_and_increment"]}
{"id": "C13", "title": "Constraint scaling is history independent", "statement": "After any sequence of set_input_scales / set_con_scales calls, constraints, jacobian and hessian of a constraint object equal the unscaled ones evaluated at x*scale with rows divided by the last con scales and columns multiplied by the last input scales; earlier calls leave no trace.", "quantifier": "all call histories, all scales, all structures and points", "why_tests_cant": "histories are unbounded sequences; caches of derived scale arrays are refreshed on each call", "anchors": ["lumos/optimal_control/nlp.py:BaseConstraints.set_input_scales", "lumos/optimal_control/nlp.py:BaseConstraints.set_con_scales", "lumos/optimal_control/nlp.py:BaseConstraints.constraints", "lumos/optimal_control/nlp.py:BaseConstraints.jacobian", "lumos/optimal_control/nlp.py:BaseConstraints.hessian"]}
{"id": "C14", "title": "Scaled jacobian and hessian are the derivatives of the scaled functions", "statement": "If the unscaled jacobian (hessian) with its sparsity structure is the derivative of the unscaled constraints (lagrangian) then the scaled jacobian (hessian) returned to the optimizer, with the same structure, is the derivative of the scaled constraints (scaled lagrangian) with respect to the scaled variables; likewise for objective gradient and hessian.", "quantifier": "all differentiable constraint functions, scales (non-zero con scales), multipliers and points", "why_tests_cant": "a statement about real derivatives at every point", "anchors": ["lumos/optimal_control/nlp.py:BaseConstraints.jacobian", "lumos/optimal_control/nlp.py:BaseConstraints.hessian", "lumos/optimal_control/nlp.py:BaseObjective.gradient", "lumos/optimal_control/nlp.py:BaseObjective.hessian"]}
{"id": "C15", "title": "Constraint and objective registration", "statement": "For every sequence of add/delete operations on a composite problem: names are unique, insertion order is preserved, adding a duplicate name, or a constraint with a mismatching number of inputs, is rejected without changing the problem (objectives are not checked for their number of inputs), deleting an unknown name is rejected, and num_con / jacobian / hessian non-zero counts are the sums over the currently registered pieces.", "quantifier": "all operation histories", "why_tests_cant": "history quantification", "anchors": ["lumos/optimal_control/nlp.py:CompositeProblem.add_constraints", "lumos/optimal_control/nlp.py:CompositeProblem.delete_constraints", "lumos/optimal_control/nlp.py:CompositeProblem.add_objective", "lumos/optimal_control/nlp.py:CompositeProblem.delete_objective", "lumos/optimal_control/nlp.py:CompositeProblem.num_con"]}
{"id": "C16", "title": "Composite constraints are a vertical stack", "statement": "constraints(x) is the concatenation in registration order; the matrix described by (jacobianstructure, jacobian(x)) is the vertical stack of the pieces' matrices; structure and values have equal length; split_constraints inverts the concatenation by name; if the pieces have exact derivatives the stacked jacobian and the summed gradient are the derivatives of what constraints and objective return.", "quantifier": "all collections of constraints of all sizes and structures", "why_tests_cant": "index offset arithmetic over unbounded collections", "anchors": ["lumos/optimal_control/nlp.py:CompositeProblem.constraints", "lumos/optimal_control/nlp.py:CompositeProblem.jacobian", "lumos/optimal_control/nlp.py:CompositeProblem.jacobianstructure", "lumos/optimal_control/nlp.py:CompositeProblem.split_constraints"]}
{"id": "C17", "title": "Composite hessian is the upper triangle of the lagrangian hessian", "statement": "The matrix described by (hessianstructure, hessian(x, lagrange, obj_factor)) equals the upper triangle of obj_factor*sum(objective hessians) + sum over constraints of their hessians with their own slice of the multipliers. The structure must be re-queried after the problem changes: hessian values computed with an index mask cached before an add/delete are wrong or fail.", "quantifier": "all collections, structures (with duplicates), multipliers and points; all histories of add/delete/structure/hessian calls", "why_tests_cant": "history and size quantification", "anchors": ["lumos/optimal_control/nlp.py:CompositeProblem.hessian", "lumos/optimal_control/nlp.py:CompositeProblem.hessianstructure", "lumos/optimal_control/nlp.py:CompositeProblem._idx_triu"]}
{"id": "C18", "title": "Solving in scaled variables solves the original problem", "statement": "For positive scales: the vector handed to the optimizer unscales to the user's guess, a scaled vector is within the optimizer's bounds iff the unscaled vector is within the user's bounds, and it is feasible/optimal for the scaled problem iff the unscaled one is for the user's problem; the returned solution is the optimizer's one multiplied by the scales; constraints are equalities with zero right hand side, as set by all problems of the library. Findings: for a negative scale (which nothing rejects) the bound equivalence fails; constraint bounds other than zero are handed over unscaled and change their meaning.", "quantifier": "all positive scale vectors, bounds (incl. infinite), objectives, constraints, optimizers", "why_tests_cant": "optimizer is arbitrary; equivalence of optimization problems over real vectors", "anchors": ["lumos/optimal_control/nlp.py:NLPFunction.solve", "lumos/optimal_control/nlp.py:NLPFunction.set_dec_var_scale", "lumos/optimal_control/nlp.py:BaseObjective.objective"]}
{"id": "C19", "title": "Linear constraint caching is sound", "statement": "A linear constraint that caches its jacobian returns, for every call history and every points, the same jacobian as an uncached one and a zero hessian, provided its jacobian truly does not depend on x; after invalidation/scale changes the values follow the new scales.", "quantifier": "all call histories and points", "why_tests_cant": "history quantification", "anchors": ["lumos/optimal_control/nlp.py:LinearConstraints"]}
{"id": "C20", "title": "Collocation matrices are exact on polynomials", "statement": "For distinct support points, the lagrange basis satisfies L_i(x_j) = [i=j] and interpolates every polynomial of degree < n exactly; hence build_lagrange_differentiation_matrix differentiates, and build_lagrange_integration_matrix integrates, every polynomial of degree < n exactly at the evaluation points.", "quantifier": "all numbers of points, all distinct supports, all polynomials of admissible degree, all evaluation points", "why_tests_cant": "real-analysis statement over all polynomials and degrees", "anchors": ["lumos/optimal_control/collocation.py:build_lagrange_differentiation_matrix", "lumos/optimal_control/collocation.py:build_lagrange_integration_matrix", "lumos/optimal_control/collocation.py:make_lagrange_polynomial"]}
{"id": "C21", "title": "Flipped Legendre-Gauss-Radau points end at the interval end", "statement": "For every number of points n >= 1, -1 is a root of P_{n-1}+P_n, so the flipped LGR set contains 1 and the normalised transcription points lie so that the last interpolation point is the end of the interval (mesh stages coincide with interval ends).", "quantifier": "all n", "why_tests_cant": "all orders", "anchors": ["lumos/optimal_control/collocation.py:get_collocation_points", "lumos/optimal_control/transcription.py:LGR.__init__"]}
{"id": "C22", "title": "Transcription residuals vanish exactly on the scheme's solutions", "statement": "For ForwardEuler, Trapezoidal, LGR and LGRIntegral the continuity residual h-scaled formula A x - h B xdot is zero iff the textbook update holds; constant states with zero derivative satisfy it for every scheme; polynomial states of degree at most the scheme's order with their exact derivatives satisfy it for every interval length; an unknown scheme name raises.", "quantifier": "all interval lengths, state values, polynomials, numbers of LGR points", "why_tests_cant": "real-analysis statement over all polynomials", "anchors": ["lumos/optimal_control/transcription.py:ForwardEuler", "lumos/optimal_control/transcription.py:Trapezoidal", "lumos/optimal_control/transcription.py:LGR", "lumos/optimal_control/transcription.py:LGRIntegral", "lumos/optimal_control/transcription.py:make_transcription"]}
{"id": "C23", "title": "Mesh construction yields a valid mesh or is rejected", "statement": "set_normalized_mesh accepts a mesh iff it has num_intervals+1 strictly increasing points whose ends are 0 and 1 up to 1e-6; then the flat mesh has num_stages points, is strictly increasing, contains the interval ends at stages i*(m-1), and interval lengths are positive and sum to last minus first point (exactly 1 for the default mesh or exact ends); otherwise ValueError and the old mesh is kept.", "quantifier": "all numbers of intervals, stages, point vectors and transcription interpolation points", "why_tests_cant": "all real-valued meshes", "anchors": ["lumos/optimal_control/scaled_mesh_ocp.py:ScaledMeshOCP.set_normalized_mesh", "lumos/optimal_control/scaled_mesh_ocp.py:ScaledMeshOCP._flat_normalized_mesh", "lumos/optimal_control/scaled_mesh_ocp.py:ScaledMeshOCP._normalized_interval_length"]}
{"id": "C24", "title": "Continuity constraints are the transcription defects of every interval", "statement": "continuity constraint entry (interval i, row k, state d) equals sum_j A[k,j] x[i(m-1)+j, d] - len_i * mesh_scale * sum_j B[k,j] xdot[i(m-1)+j, d]; there are num_intervals*(m-1)*num_states of them, in interval-major order.", "quantifier": "all problem sizes, transcriptions, meshes and decision vectors", "why_tests_cant": "unbounded sizes; einsum/stacking index conventions", "anchors": ["lumos/optimal_control/scaled_mesh_ocp.py:ScaledMeshOCP._continuity_constraints"]}
{"id": "C25", "title": "The hand-written continuity jacobian is exact", "statement": "The matrix described by the continuity jacobian structure and values equals the matrix of partial derivatives of the continuity constraints in every decision variable (states, states_dot, mesh_scale and all others), and no nonzero falls outside the structure; the hand-written hessian structure/values equal the second derivatives of the lagrangian.", "quantifier": "all sizes, transcriptions, meshes, points, multipliers", "why_tests_cant": "derivative exactness at every point and size; hand-written index arithmetic", "anchors": ["lumos/optimal_control/scaled_mesh_ocp.py:ScaledMeshOCP._continuity_jacobian", "lumos/optimal_control/scaled_mesh_ocp.py:ScaledMeshOCP._continuity_jacobianstructure", "lumos/optimal_control/scaled_mesh_ocp.py:ScaledMeshOCP._continuity_hessian"]}
{"id": "C26", "title": "Bounds stay consistent under every history", "statement": "After any sequence of update_bounds / boundary-condition calls: every lower bound <= upper bound, each variable carries the last bound set for it (boundary conditions override at the first/last stage), and variables not mentioned keep the default; an invalid bound given to one of the set_..._bounds calls is rejected without effect. Findings: update_bounds with several items is not atomic, and a rejected boundary condition stays stored so that later updates raise.", "quantifier": "all call histories, variables and values", "why_tests_cant": "history quantification", "anchors": ["lumos/optimal_control/scaled_mesh_ocp.py:ScaledMeshOCP.update_bounds", "lumos/optimal_control/scaled_mesh_ocp.py:ScaledMeshOCP.set_boundary_conditions", "lumos/optimal_control/scaled_mesh_ocp.py:ScaledMeshOCP._set_var_bounds", "lumos/optimal_control/config.py:BoundConfig"]}
{"id": "C27", "title": "Variable and constraint scales are applied to the right entries", "statement": "set_scales gives every variable at every stage the scale configured for its name and 1 otherwise, regardless of earlier calls; defect constraint entry (i,k,d) gets the scale of state d and each model-algebra row gets the scale of the state/output it defines. Finding: a call that raises leaves the decision variable scales changed but not those inside objectives and constraints.", "quantifier": "all sizes, configurations and call histories", "why_tests_cant": "alignment of independently built vectors for all sizes", "anchors": ["lumos/optimal_control/scaled_mesh_ocp.py:ScaledMeshOCP.set_scales"]}
{"id": "C28", "title": "Cyclic constraints", "statement": "The cyclic constraints are exactly first-stage value minus last-stage value for every listed cyclic variable; their jacobian is exact; a point satisfies them iff all cyclic variables agree at both ends; by default all states and inputs that are not excluded are cyclic. Findings: names with a dot cannot be cyclic; excluding everything makes the problem fail on evaluation.", "quantifier": "all sizes, variable subsets and points", "why_tests_cant": "unbounded sizes", "anchors": ["lumos/optimal_control/scaled_mesh_ocp.py:ScaledMeshOCP._cyclic_constraints", "lumos/optimal_control/scaled_mesh_ocp.py:ScaledMeshOCP._build_cyclic_constraints"]}
{"id": "C29", "title": "The condensed problem is equivalent to the full one", "statement": "For every decision vector there is exactly one vector that differs from it in the states_dot variables only and satisfies the state equations; the condensed constraints are the continuity constraints and the remaining model algebra rows of the full problem at that vector, so one is feasible iff the other is. The condensed jacobian is the matrix of derivatives and is zero in the states_dot columns; the multiplier conversion used for the hessian preserves the lagrangian, and the condensed hessian is the hessian of the condensed lagrangian.", "quantifier": "all models, sizes and points", "why_tests_cant": "equivalence over all models and points", "anchors": ["lumos/optimal_control/scaled_mesh_ocp.py:ScaledMeshOCP._condensed_constraints", "lumos/optimal_control/scaled_mesh_ocp.py:ScaledMeshOCP._condensed_jacobian", "lumos/optimal_control/scaled_mesh_ocp.py:ScaledMeshOCP._condensed_hessian"]}
{"id": "C30", "title": "Submodel call protocol", "statement": "In one round of a composite model's forward every submodel must be called exactly once: the outputs are then collected under the submodel's name with the right prefix; calling twice raises RuntimeError, forgetting one raises KeyError; after a successful round the model is ready for the next round; after a failed round it is not.", "quantifier": "all sequences of calls over any number of rounds", "why_tests_cant": "history quantification", "anchors": ["lumos/models/base.py:Model.call_submodel", "lumos/models/base.py:Model.collect_submodel_outputs"]}
{"id": "C31", "title": "Recursive parameters of composite models", "statement": "get_recursive_params after set_recursive_params(p) returns p restricted to the model's submodel structure; a missing child raises KeyError, in which case some parameters may already be changed; extra children are ignored; default parameter trees have the shape of the model.", "quantifier": "all model trees and all parameter trees", "why_tests_cant": "unbounded tree depth", "anchors": ["lumos/models/composition.py:CompositeModel.set_recursive_params", "lumos/models/composition.py:CompositeModel.get_recursive_params"]}
{"id": "C32", "title": "Model registry and building from configuration", "statement": "ModelMaker behaves as a finite map under every history: a name registered twice is rejected, removing an unknown name is rejected; building from a config tree creates exactly the configured submodel types at every path; a config naming an unregistered type is rejected.", "quantifier": "all histories, all config trees", "why_tests_cant": "history and tree-depth quantification", "anchors": ["lumos/models/composition.py:ModelMaker", "lumos/models/composition.py:CompositeModel.__init__", "lumos/models/composition.py:CompositeModel.get_submodel"]}
{"id": "C33", "title": "Named vectors", "statement": "converting the vector of a group to a dictionary and back gives the vector, and the vector of a dictionary holds exactly the values of the group's names in their order; a missing name is rejected with KeyError; make_vector ignores extra names and make_dict keeps them; positions agree with get_var_index_in_group and with the flat implicit vector split.", "quantifier": "all name lists without duplicates, all dictionaries and vectors", "why_tests_cant": "all name sets and orders", "anchors": ["lumos/models/base.py:Model.make_vector", "lumos/models/base.py:Model.make_dict", "lumos/models/base.py:StateSpaceModel.get_var_index_in_flat", "lumos/models/base.py:StateSpaceModel._split_flat_vars"]}
{"id": "C34", "title": "Model algebra residual and its declared sparsity", "statement": "The implicit residual vector is (f - states_dot, g - con_outputs, residuals) in that order, it is zero iff states_dot and con_outputs are the model's outputs and residuals vanish; the declared jacobian structure contains every entry that can be non-zero, without duplicates, and the declared hessian structure contains every entry that can be non-zero; without states and inputs, or without residual rows, building the structure raises ValueError.", "quantifier": "all models, sizes and points", "why_tests_cant": "sizes unbounded, derivative statement at all points", "anchors": ["lumos/models/base.py:StateSpaceModel.make_model_algebra_cons", "lumos/models/base.py:StateSpaceModel._model_algebra_jacobianstructure", "lumos/models/base.py:StateSpaceModel._model_algebra_hessianstructure"]}
{"id": "C35", "title": "Batched unit problems assemble to the right big problem", "statement": "Convolving a unit constraint over the stages (with the stage mesh as argument) gives a constraint vector whose block k is the unit constraint on window k, a jacobian whose assembled matrix is the derivative of that vector and a hessian whose assembled matrix is the sum of the windows' lagrangian hessians; a multiplier vector of the wrong length raises ValueError.", "quantifier": "all unit problems, sizes, strides and points", "why_tests_cant": "unbounded number of windows; overlapping windows sum duplicates", "anchors": ["lumos/optimal_control/convolution.py:ConvConstraints"]}
{"id": "C36", "title": "Backend selection is properly nested", "statement": "For every nesting of `with use_backend(b)` blocks created at the point of entry, the backend inside is the innermost valid one and the backend after each block (also on exceptions) is the one before it; a context object created earlier than it is entered (e.g. decorator use) restores the backend of creation time instead.", "quantifier": "all programs built from nested blocks, set_backend calls and exceptions", "why_tests_cant": "unbounded nesting and interleavings", "anchors": ["lumos/numpy/utils.py:use_backend", "lumos/numpy/__init__.py:set_backend"]}
{"id": "C37", "title": "Mapping over a batch", "statement": "lmap/cmap(f, in_axes)(args)[i] = f(args with mapped arguments indexed at i) for every batch size, and the result does not depend on earlier calls with other batch sizes (cache); Findings: if the first argument that is not None is unmapped, the batch size is taken from the wrong argument; longer mapped arguments are silently cut.", "quantifier": "all functions, batch sizes, in_axes patterns and call histories", "why_tests_cant": "history and size quantification", "anchors": ["lumos/numpy/utils.py:lmap", "lumos/numpy/utils.py:cmap"]}
{"id": "C38", "title": "Simulation configuration round trip", "statement": "SimConfig(**cfg.to_dict()) has the same bounds, scales and boundary conditions as cfg for every configuration built from documented arguments; invalid bounds (lower > upper, wrong lengths) are rejected at construction; Findings: the logging configuration comes back as a plain dictionary; a list of objects comes back as a tuple; only the first element decides whether elements are converted.", "quantifier": "all configurations", "why_tests_cant": "all list lengths and values", "anchors": ["lumos/optimal_control/config.py:SimConfig", "lumos/optimal_control/config.py:BoundConfig"]}
{"id": "C39", "title": "Iteration logging", "statement": "During one solve with sampling k, the final merged file contains exactly the recorded iterations i with i mod k = 0 plus the last one, once each and in order, every row holding the unscaled values of the point evaluated last before the record; temporary files are removed; this holds after any number of earlier successful solves; a solve with an error status leaves the old result files untouched. Findings: a second solve that starts at the iteration where the first one ended skips its first record; leftovers of a failed solve are merged into the next one; the metrics history is never cleared; the mesh column uses the scaled mesh scale.", "quantifier": "all callback sequences (with repeated iteration counts), all k, all numbers of solves", "why_tests_cant": "history quantification", "anchors": ["lumos/optimal_control/scaled_mesh_ocp.py:ScaledMeshOCP._logging_step_pre", "lumos/optimal_control/scaled_mesh_ocp.py:ScaledMeshOCP.intermediate"]}
{"id": "C40", "title": "NumPy compatibility of the casadi array layer", "statement": "The casadi versions of diff, roll by one, mean and sum along an axis, trapz, clip, interp, split, stack, linspace/logspace/cosspace, trigonometric functions and rotation matrices return what numpy (or the mathematics) says for every argument; diff of order above 1, roll by other amounts, roll of rows, mean without axis of a matrix, geomspace, split of an empty array or at indices out of range do not (findings, proved as such).", "quantifier": "all vectors, orders, shifts", "why_tests_cant": "all sizes", "anchors": ["lumos/numpy/casadi_numpy/array.py:roll", "lumos/numpy/casadi_numpy/calculus.py:diff"]}
{"id": "C41", "title": "Vehicle force balances", "statement": "For every input: the four wheel loads sum to the total vertical load and their moments balance; drive torques satisfy power conservation and the differential equation; brake torques sum to the demanded torque split by the balance; rotation into the wheel frame preserves magnitude and is inverted by the opposite angle; accelerations are Newton's and Euler's equations with the tire and aero forces, the kinetic energy changes by the engine power minus brakes, drag and sliding work, and a mirrored situation has mirrored derivatives.", "quantifier": "all parameters and real inputs (excluding stated singular ones)", "why_tests_cant": "algebraic identities over the reals", "anchors": ["lumos/models/vehicles/simple_vehicle.py"]}
{"id": "C42", "title": "Objectives and their hand-written derivatives", "statement": "The time objective is the end time minus the start time (or mesh_scale based time) and its gradient is exact; the input-penalty objective is the mean over the stages of the weighted squares of the inputs and its gradient and hessian (values with structure) are exact derivatives.", "quantifier": "all sizes, weights, points", "why_tests_cant": "derivative statements at every point and size", "anchors": ["lumos/optimal_control/scaled_mesh_ocp.py:ScaledMeshOCP._time_objective", "lumos/simulations/laptime_simulation.py:LaptimeSimulation._inputs_penalty"]}
{"id": "C43", "title": "Finite difference weights are exact and unique", "statement": "finite_difference_coefficients(x, x0, derivative_degree) with distinct grid points x (any order, any spacing), any x0 and 1 <= derivative_degree < len(x) returns len(x) weights whose dot product with the values of a polynomial of degree < len(x) on the grid is the requested derivative of the polynomial at x0; no other weights have this property, they add up to 0 and do not change when grid and x0 are shifted together.", "quantifier": "all grids of distinct reals, all x0, all derivative degrees below the number of points, all polynomials of degree below the number of points", "why_tests_cant": "the recursion fills a three-dimensional table and the claim is about every grid, every degree and every polynomial; tests check a few tabulated stencils", "anchors": ["lumos/numpy/casadi_numpy/finite_difference_operators.py:finite_difference_coefficients"]}
{"id": "C44", "title": "Track-relative kinematics are the true motion of the car, per metre of track", "statement": "For a car with body speeds vx, vy and yaw rate on a track whose centre line has tangent (cos,sin) of its heading and heading slope its curvature, the derivatives returned by TrackPosition2D.forward (dt/ds, dn/ds, deta/ds) are those of a car at lateral offset n and relative heading eta: along any motion whose track coordinates follow them, the world position moves with the car's velocity rotated by its absolute heading and the heading turns with the yaw rate; time strictly increases along the track when the car moves forward inside the centre of curvature. SimpleVehicleOnTrack returns exactly the vehicle's own time derivatives times dt/ds.", "quantifier": "all tracks with a differentiable centre line, all vehicles (state names, equations), all states and inputs with non-vanishing progress", "why_tests_cant": "statement about derivatives of arbitrary curves and every state", "anchors": ["lumos/models/kinematics.py:TrackPosition2D.forward", "lumos/models/simple_vehicle_on_track.py:SimpleVehicleOnTrack.forward"]}
{"id": "C45", "title": "Race track geometry", "statement": "A RaceTrack answers curvature_at/heading_at/left_distance_at/right_distance_at by linear interpolation in the distance from its first sample and with the end values outside; sides default to 5 m; total_distance is last minus first sample. from_curvilinear gives, at every sample, a heading that is exactly the initial heading plus the integral of the track's own curvature function, and positions that move along the mean unit tangent (never further than the distance). from_cartesian measures distance along the polyline, is invariant under translations and rotations of the map (headings turn with it), scales (distance by c, curvature by 1/c), mirrors (curvature changes sign), gives exactly 0 curvature and a loss-free round trip for straight lines and exactly 1/r inside equally spaced points of a circle. ConstCurvTrack's heading is the integral of its curvature. from_cartesian of any points whose neighbours differ and which never return to the point before the last has distance, curvature and heading that are uniquely determined: the curvature is (x'y''-x''y')/(x'^2+y'^2)^(3/2) with the derivatives of the parabola through each sample and its neighbours, the heading starts in the direction of the first step and integrates the curvature by the trapezoidal rule. Finding: at a cusp (return to the point before the last) the curvature is 0/0.", "quantifier": "all sample arrays (any length >= 2, any increasing spacing), all lookups, all rigid motions and scales, all radii and step angles below pi", "why_tests_cant": "invariance and exactness over all maps and all positions; tests look at a few samples of one track", "anchors": ["lumos/models/tracks.py:_trapz", "lumos/models/tracks.py:cartesian_to_curvilinear", "lumos/models/tracks.py:curvilinear_to_cartesian", "lumos/models/tracks.py:RaceTrack", "lumos/models/tracks.py:ConstCurvTrack"]}
{"id": "C46", "title": "Perantoni tire: friction ellipse, signs and symmetry", "statement": "PerantoniTire.forward interpolates peak friction and peak slip linearly in the load through the two reference points; for every load and slip the returned forces satisfy (Fx/(mu_x Fz))^2+(Fy/(mu_y Fz))^2 < 1; Fx has the sign of the slip ratio and Fy the opposite sign of the slip angle as long as the interpolated peaks are positive (shown for the default parameters up to 20.5 kN); reversing a slip reverses its force and keeps the other; speed and camber do not matter; all moments are zero. Findings: above about 22.6 kN the default tire's forces reverse, and the default force peak is not at the documented slip.", "quantifier": "all tire parameters, loads, slip ratios, slip angles, speeds and cambers (real numbers)", "why_tests_cant": "an inequality and sign conditions over a continuum of inputs and parameters", "anchors": ["lumos/models/tires/perantoni.py:PerantoniTire.forward"]}
{"id": "C47", "title": "Reading a .tir tire file", "statement": "read_tir_file never raises on readable text: for lines with at most one data '=' sign it returns exactly the numeric entries, the value being the number before any comment, the last line winning when a name repeats, and skips everything that is not a number; create_params_from_tir_file additionally sets the four regularisation constants and changes nothing else. Finding: comment lines containing '=' and tabs in names are read as data.", "quantifier": "all files (any number and content of lines), any number parser", "why_tests_cant": "ranges over all texts; the tests read one file", "anchors": ["lumos/models/tires/utils.py:read_tir_file", "lumos/models/tires/utils.py:create_params_from_tir_file"]}
{"id": "C48", "title": "Drone dynamics", "statement": "DroneModel.forward returns Newton's equations for a thrust along the turned body axis and gravity: along any motion following it the mechanical energy changes with the power of the thrust, in free fall energy and horizontal speed are conserved, all derivatives vanish exactly when hovering; a missing state, input or parameter is a KeyError.", "quantifier": "all gravities, thrusts, motions and times; all dictionaries", "why_tests_cant": "statement about derivatives along arbitrary motions", "anchors": ["lumos/models/drone_model.py:DroneModel.forward"]}
{"id": "C49", "title": "Aero maps from networks and gaussian processes", "statement": "mlp returns, for any layers that fit, as many numbers as the last layer has rows, each strictly in (-1,1), is odd in its input (no bias), composes by layers, and raises ValueError when a layer does not fit; gp returns the kernel-weighted sums, bounded by the sum of the weights' magnitudes; MLPAero and GPAero read their inputs by name, name the first three results Cx, Cy, Cz and raise KeyError for a missing input; layers stored in the flat parameter dictionary come back in order whatever their number. Finding: after re-ordering the parameters the layers are taken in dictionary order, not by their number.", "quantifier": "all networks (any number and size of layers), points, weights and inputs", "why_tests_cant": "bounds and shape statements over all weights, layer counts and inputs", "anchors": ["lumos/models/ml.py:gp", "lumos/models/ml.py:mlp", "lumos/models/aero/aero.py:ConstAero", "lumos/models/aero/aero.py:GPAero", "lumos/models/aero/aero.py:MLPAero"]}
{"id": "C50", "title": "The model solver poses the user's problem by name", "statement": "For every state-space model, list of constrained outputs and history of set_bounds / set_var_scale / add_obj_from_var / delete_objective calls (accepted or refused) on a ModelSolver: every variable has the bounds last accepted for it (a number meaning an equality), bounds with lower > upper, scales that are not positive and unknown variables are refused without effect; the objective is the sum of weight times variable over the objectives present and the gradient handed to the optimizer is exact; and the problem handed to the optimizer has, each variable multiplied by its scale, exactly the feasible points and optima of the user's problem (bounds, model equations at mesh 0, objective), starts at the guess, and the solution is returned unscaled; only the optimizer status -13 makes solve raise.", "quantifier": "all models with distinct names, all constrained outputs, all histories of calls, all optimizers, all guesses and points", "why_tests_cant": "scales, bounds and objectives interact through shared arrays and index lookups over unbounded call histories; tests check one model with a few calls", "anchors": ["lumos/optimal_control/model_solver.py:ModelSolver", "lumos/optimal_control/nlp.py:CompositeProblem", "lumos/models/base.py:StateSpaceModel.set_con_outputs"]}
{"id": "C51", "title": "A whole optimal control problem, from constructor to solution", "statement": "For every model, configuration (intervals, mesh points, transcription, cyclic variables and exclusions, constrained outputs, bounds, boundary conditions, scales, input penalty) and every history of accepted calls (update_bounds, update_boundary_conditions, set_scales, new parameters, set_mesh_scale) on ScaledMeshOCP or FixedMeshOCP: the points feasible for what IPOPT is given are, each variable multiplied by its latest scale, exactly the trajectories of the model with the latest parameters (model equations at every stage at the position of that stage, the quadrature rule in every interval, cyclic variables equal at both ends, latest bounds and boundary conditions), its optima are exactly the trajectories of least time (plus, if asked for, the mean over the stages of the weighted squares of the inputs), solve starts from the user's guess and returns the physical values of IPOPT's answer, raising RuntimeError for status -13 only. Every configuration that is in order is accepted, and so is every call that is in order after any history. If the model's own derivative functions are exact (and the model is position free or the mesh fixed) then gradient, jacobian and lagrangian hessian given to IPOPT, with their structures, are exact. Findings: replacing the mesh after construction leaves the model equations at the old positions; set_mesh_scale does not check positivity.", "quantifier": "all models, configurations, histories of calls of any length, guesses, decision vectors and optimizer answers", "why_tests_cant": "an equivalence of solution sets over all models, mesh sizes and call histories; tests solve a few problems", "anchors": ["lumos/optimal_control/scaled_mesh_ocp.py: ScaledMeshOCP.__init__, solve, _build_model_algebra, _build_continuity_cons, _build_cyclic_cons, _build_objective, set_scales, update_bounds, update_boundary_conditions, set_normalized_mesh", "lumos/optimal_control/fixed_mesh_ocp.py: FixedMeshOCP", "lumos/optimal_control/nlp.py: CompositeProblem, solve"]}
{"id": "C52", "title": "A laptime simulation, from track file to solution", "statement": "LTCConfig requires a track, fills in the documented defaults (99 intervals, trapezoidal, bounds, start time 0, scales, slip outputs) for everything not given and makes time and track_heading non-cyclic. For every vehicle model, configuration and history of accepted calls (including set_track) on a LaptimeSimulation: the points feasible for IPOPT are, in physical values, exactly the trajectories of the model on a mesh of the length of the centre line of the track last set; along them, at every stage, the curvature and heading inputs are those of that road at that distance and the lateral position is between its two edges (unless later settings say otherwise); its optima are exactly those of least lap time plus the mean square of the steering. The default configuration with any drivable track file is accepted, and so is every configuration and call in order. get_init_guess returns the centre line driven at 50 m/s: time is distance / 50, wheels roll without slip, pedals and steering 0, road curvature and heading, and the model equations hold at every stage. All derivatives for IPOPT are exact if those of the model are. Findings: in a cyclic lap track_curvature is both cyclic and fixed to the road's value at both ends, so there is no feasible point on a road whose end curvatures differ; the default boundary conditions are those of a cyclic lap although is_cyclic defaults to False; the lap ends at the last point of the file, the closing segment is not driven.", "quantifier": "all vehicle models, track files, configurations, histories of calls, decision vectors and optimizer answers", "why_tests_cant": "equivalence of solution sets for every track, model and history; tests solve one track with one model", "anchors": ["lumos/simulations/laptime_simulation.py: LTCConfig, LaptimeSimulation.__init__, set_track, get_init_guess, distance_mesh", "lumos/models/tracks.py: RaceTrack.from_tum_csv, from_cartesian", "lumos/optimal_control/fixed_mesh_ocp.py: FixedMeshOCP"]}
{"id": "C53", "title": "A drone simulation, from configuration to solution", "statement": "DroneSimulationConfig fills in its documented defaults for whatever is not given. For every number of intervals, admissible mesh points, gravity, positive scales, and history of changes of gravity and scales, a DroneSimulation is built, and the points feasible for IPOPT are, in physical values, exactly the trapezoidal flights of the drone: each of x, x_dot, z, z_dot, theta changes over an interval by its duration times the mean of its rates (x_dot, f sin theta, z_dot, f cos theta - gravity, omega) at both ends, starts at rest at the origin with angle 0 and ends at rest at height 5 with angle 2 pi, thrust in [1, 20], angular speed in [-10, 10], positions and speeds within 50, total time in [0.1, 50]; the optima are exactly the flights of least total time. get_total_time is that time. The initial guess is the documented constant one and satisfies the model equations. Every flight on the default mesh takes at least pi/5 seconds; with gravity above 20 there is none. All derivatives for IPOPT are exact if those of the model are.", "quantifier": "all numbers of intervals, mesh points, gravities, scales, histories, decision vectors and optimizer answers", "why_tests_cant": "equivalence of solution sets for all sizes and parameters; tests solve one instance", "anchors": ["lumos/simulations/drone_simulation.py: DroneSimulationConfig, get_default_boundary_conditions, get_default_bounds, DroneSimulation.__init__, get_init_guess, get_total_time", "lumos/models/drone_model.py: DroneModel.forward", "lumos/optimal_control/scaled_mesh_ocp.py: ScaledMeshOCP"]}
{"id": "C54", "title": "The fastest lap of the actual vehicle", "statement": "SimpleVehicleOnTrack in the laptime simulation with its default bounds, boundary conditions and outputs: for every number of intervals, mesh points, open or cyclic lap, positive scales, and every history of replacing the track, the parameters and the scales, if the vehicle's parameters are sensible (positive masses and lengths, tracks up to 1.5 m, steering up to 10 degrees and no tighter turning circle than half a track) and the bends of the road are wider than the road, then the points feasible for IPOPT are, in physical values, exactly the laps: at every mesh point there are wheel forces and torques that satisfy Newton's laws for body and wheels, the load balance, the tire and aero models and the differential; time, offset, heading error, speeds and wheel speeds change by the trapezoidal rule over the distance; the car stays between the edges of the road and within the limits on speeds, slips and controls; a cyclic lap ends as it began but for time and road heading. The optima are exactly the laps with the least lap time plus mean squared steering input. On every such lap the car moves forward along the road at every point, no denominator of the model is zero, every step takes time, and the lap time is the trapezoidal integral of 1/speed. The default car is sensible; the default configuration is accepted on every drivable road.", "quantifier": "all numbers of intervals, mesh points, roads, vehicle, tire and aero models, histories, decision vectors and optimizer answers", "why_tests_cant": "equivalence of solution sets and absence of division by zero over a continuum of states, cars and roads; tests evaluate the model at single points", "anchors": ["lumos/models/simple_vehicle_on_track.py: SimpleVehicleOnTrack.forward", "lumos/models/vehicles/simple_vehicle.py: SimpleVehicle.forward, get_default_params", "lumos/models/kinematics.py: TrackPosition2D.forward", "lumos/models/base.py: call_submodel, make_outputs_dict", "lumos/simulations/laptime_simulation.py: LaptimeSimulation"]}
{"id": "C55", "title": "The Pacejka MF5.2 tire", "statement": "For every set of coefficients and every load, slip, slip angle, speed and camber, MF52.forward returns the numbers that satisfy the MF5.2 equations (pure slip curves with limited curvature, combined slip weights, side force from longitudinal slip, stiffnesses, overturning, rolling and aligning moments with the equivalent slip angles), exactly when such numbers exist; in optimization mode the moments are 0 and nothing else changes; it raises KeyError exactly if an input or one of the named coefficients is missing, and the coefficients of the moments are not needed in optimization mode. The same tire on the other side of the car (coefficients of the asymmetric effects negated) at the mirrored slip and camber angle has the same longitudinal force, rolling moment, stiffnesses and weights and the opposite lateral force, overturning and aligning moment. Without slip angle (slip) the weight of the longitudinal (lateral) force is 1; friction times load limits the forces whatever the slip, and for shape factors above 1 the limit is reached; the stiffness outputs are the slopes of the force curves at their offsets up to the regularization factor. In the range of loads and camber angles of the default tire all outputs are numbers.", "quantifier": "all coefficients, both modes, all loads, slips, slip angles, speeds, camber angles", "why_tests_cant": "the claims range over all reals (an identity between two implementations, extrema and derivatives of transcendental functions, definedness for every slip); tests compare a few points with MFeval", "anchors": ["lumos/models/tires/pacejka.py: MF52.forward, _do_force_and_moments, _calculate_basic, _calculate_Fx0, _calculate_Fx, _calculate_Fy0, calcluate_Fy, _calculate_Mz, _calculate_My, _calculate_Mx, get_default_params"]}
{"id": "C56", "title": "A condensed optimal control problem solves the same problem as the full one", "statement": "For every model, configuration and history of successful calls with positive scales: a ScaledMeshOCP built with is_condensed=True gives IPOPT a problem whose feasible points are exactly those whose derivative variables are within their own bounds (0 unless the user sets others after construction) and that become trajectories of the model within all other bounds and boundary conditions when the derivative variables are replaced by suitable values; its optima are those of least cost; solve starts at the guess and returns the physical values of IPOPT's answer or raises RuntimeError on status -13. If nothing is asked for the derivative variables, the condensed and the full problem built from the same configuration and calls have the same feasible points and optima up to the derivative variables (0 in the condensed one). Every configuration and call that the full problem accepts is accepted, except a change of the model parameters. Gradient and lagrangian hessian are exact if the model's derivatives are; so are the entries of the jacobian in the structure, which contains every entry that does not vanish at the vector drawn at construction (outside the mesh scale column).", "quantifier": "all models, configurations, fixed or free meshes, histories of calls, guesses, answers of IPOPT, random vectors drawn at construction", "why_tests_cant": "the equivalence of two optimization problems ranges over all decision vectors and all models and call histories; tests compare values at a few random points", "anchors": ["lumos/optimal_control/scaled_mesh_ocp.py: ScaledMeshOCP.__init__, _build_condensed_model_algebra, _condensed_constraints, _condensed_jacobian, _condensed_jacobianstructure, _condensed_hessian, _set_model_params, set_scales, solve"]}
{"id": "C57", "title": "The vehicle and the array functions compute the same with CasADi as with numpy", "statement": "SimpleVehicle.forward returns the same states_dot, outputs and residuals with the casadi backend (vectors are n x 1 CasADi matrices, parameters symbols or numbers) as with numpy, for every state, input, parameter, aero and tire model. For this, the casadi versions of array, cross, dot, inner, outer, norm, where, minimum, maximum, logical_and/or/not, all, any, abs, concatenate, hstack, vstack, split, hsplit, vsplit, length, diag, reshape, zeros, ones, eye and arctan2d return matrices with the shape and entries that numpy gives for vectors (columns), and for matrices wherever the two agree; other shapes and axes are refused with the stated exceptions. The cases that differ from numpy are recorded: rows are not broadcast, dot and inner of matrices are entry sums, outer of rows is a scalar, cross silently uses the axis of length three, norm with axis=-1 or an order other than 1, 2, fro always raises, norm orders of matrices are entry-wise, concatenate with axis=-1 raises, hstack and vstack of vectors have other shapes, split takes no tuples, reshape is column-major.", "quantifier": "all vehicle states, inputs, parameters, submodels; all matrices, vectors, lists of blocks, axes, orders, shapes", "why_tests_cant": "the shapes, axes and values are unbounded; a test compares the two backends at a few points", "anchors": ["lumos/numpy/casadi_numpy/array.py", "lumos/numpy/casadi_numpy/linalg.py: norm, inner, outer", "lumos/numpy/casadi_numpy/linalg_top_level.py: dot, cross", "lumos/numpy/casadi_numpy/logicals.py", "lumos/numpy/casadi_numpy/conditionals.py: where", "lumos/numpy/casadi_numpy/trig.py: arctan2d", "lumos/models/vehicles/simple_vehicle.py: SimpleVehicle.forward, _rotate_z"]}
{"id": "C58", "title": "Compiling a model with CasADi through files survives kills and, if builds exclude each other, concurrent processes", "statement": "make_model_algebra_cons('casadi') writes nlpfunctions.c in the working directory, names a shared library by its md5, compiles it unless a file of that name exists, and loads forward, implicit_con, implicit_jac and implicit_hess from it. If no two processes are between opening the C file and its being read by the compiler at the same time, then for every schedule of any number of processes, with kills and compiler failures at any moment, every build that finishes returns the four functions of its own model or raises RuntimeError (md5 collisions aside); a build that runs alone returns its own functions and leaves the library in the cache; a library that exists is never replaced and alone decides what later builds of that hash return. After success the model's parameters are the ones it had before; the same holds for export_c_code. Recorded as failing: a kill while linking makes every later build of that model raise RuntimeError; without mutual exclusion a build silently returns the functions of another model, or stores them under its own hash so that every later build of the model returns them; two builds of the same model can store an empty library; after a failed build or export the model's parameters are the CasADi symbols. If all builds in a directory are of one model, then however they overlap (no build being killed while it writes), once none is still writing the C file is exactly the C code of that model.", "quantifier": "all sets of processes and models, schedules, kill points, compiler failures, initial contents of the directory, hash functions", "why_tests_cant": "there are unboundedly many interleavings and crash points, and the harm shows only in later runs", "anchors": ["lumos/models/base.py: StateSpaceModel.make_model_algebra_cons, _make_casadi_model_algebra_cons, export_c_code, apply_and_forward_with_arrays"]}
{"id": "C59", "title": "The brachistochrone example: reference solution, derivatives and optimal control problem", "statement": "In examples/brachistochrone.py: cycloid(dx, dy) with the root of the first arch returns a curve from the origin to (dx, dy) and the time of the ride along it, and no ride of TimeModel from rest at the origin to (dx, dy) \u2014 with any slope that jumps at finitely many instants \u2014 takes less time; such a root exists for every dx > 0, dy < 0, but other roots of the equation also exist and give a wrong time. The hand-written jacobian and hessian triplets of TimeModelWithCustomDerivatives are exactly the derivatives of the residuals at every point, for every gravity. The time-domain problem is accepted for every number of intervals and end point; after any changes of gravity and scales IPOPT's feasible points are exactly the trapezoidal slides from rest to (dx, dy) with |theta| <= pi/2 and 0.01 <= T <= 10, and its optima the fastest of them. With equal intervals the energy of such a slide at point s is exactly g^2 h^2/8 (sin^2 theta_0 - sin^2 theta_s). The distance model's rates are those of the time model per horizontal metre plus 1e-9. Recorded as failing: slides may end above their start (for every number of intervals >= 2) and may be faster than the brachistochrone; the hand-written derivatives miss the row of a constrained output; the batched forward of the backend 'custom' raises IndexError for every batch; the distance model does not conserve energy.", "quantifier": "all end points, gravities, slopes with finitely many jumps, numbers of intervals, scales, histories of changes, points of evaluation", "why_tests_cant": "the example runs one end point; optimality against every curve and exactness of derivatives at every point are not testable", "anchors": ["examples/brachistochrone.py:cycloid", "examples/brachistochrone.py:TimeModel", "examples/brachistochrone.py:TimeModelWithCustomDerivatives", "examples/brachistochrone.py:DistanceModel", "examples/brachistochrone.py:solve_brachistochrone", "lumos/models/base.py:_make_custom_model_algebra_cons"]}
{"id": "C60", "title": "With the jax backend the derivatives given to IPOPT are exact for every smooth model", "statement": "For every model whose declaration is accepted (distinct names, at least one state, constrained outputs and residuals among the outputs, forward returns everything declared) and whose state derivatives, constrained outputs and residuals have second partial derivatives in the states and inputs: if jax.jacobian and jax.hessian compute derivatives where they exist, then with the backend 'jax' the declared sparsity structures lose nothing - for every stage vector, mesh position, parameters and multipliers the values picked at the declared positions are exactly the full jacobian of the model algebra and the full hessian of its Lagrangian. Hence after any history of settings the gradient, jacobian and hessian of the Lagrangian that IPOPT is given are exact, for the problem with derivative variables and for the condensed one. Two exact backends give IPOPT the same matrices; in the brachistochrone example the hand-written derivatives and those of jax agree entry by entry, although jax's structure is larger, and jax stays exact when the output of the model is constrained, where the hand-written ones are wrong.", "quantifier": "all models (any names, any twice differentiable forward), all parameters, mesh positions, stage vectors, multipliers; all configurations and histories of settings", "why_tests_cant": "The declared structure is a pessimistic estimate written by hand; a missing entry silently drops a derivative for some model or point, and tests check a few models at a few points by finite differences.", "anchors": ["lumos/optimal_control/nlp.py: _make_lagrangian, JaxMappedConstraints", "lumos/models/base.py: _make_jax_model_algebra_cons, _model_algebra_jacobianstructure, _model_algebra_hessianstructure", "examples/brachistochrone.py: TimeModelWithCustomDerivatives"]}
{"id": "C61", "title": "Refining the mesh: discretized trajectories converge to motions of the model, with the order of the transcription", "statement": "For every transcription that make_transcription returns there is a constant C, independent of the model, the mesh and the problem, such that every point that satisfies the constraints of the problem (a trajectory), that starts within e0 of a motion of the model in continuous time and whose inputs at the stages are those of the motion, is within exp(C K T)(e0 + C T M h^q) of the motion at every stage: h the longest step, T the length of the mesh, K the Lipschitz constant of forward in the states, M a bound on the (q+1)-st derivative of the motion, and q = 1 for ForwardEuler, 2 for Trapezoidal, num_stages - 1 for LGR and num_stages for LGRIntegral. So for every accuracy all fine enough meshes reach it, whatever their number of intervals and distribution; on a fixed mesh the time that is minimized is as accurate. For the brachistochrone example the constants are explicit: a slide with the slopes of the cycloid is within 4 T M (T/n)^2 exp(2T) of the cycloid, and such slides exist on every mesh.", "quantifier": "all transcriptions, numbers of stages, meshes, models, motions, inputs, accuracies; all points that satisfy the constraints", "why_tests_cant": "a test compares one model on a few meshes with a reference; the rate and the uniformity over meshes and models are statements about all of them", "anchors": ["lumos/optimal_control/transcription.py: ForwardEuler, Trapezoidal, LGR, LGRIntegral, get_continuity_matrices, make_transcription", "lumos/optimal_control/scaled_mesh_ocp.py: ScaledMeshOCP._continuity_constraints", "lumos/optimal_control/fixed_mesh_ocp.py: FixedMeshOCP", "examples/brachistochrone.py: TimeModel"]}
{"id": "C62", "title": "Parameters are isolated: shared trees and dicts, models and problems as mutable objects", "statement": "In every program that makes parameter trees and dicts, shares them (the same dict in several nodes, the same node in several trees, replace_subtree, assignment of node data, as the example script does), copies them, builds problems from them and modifies problems: (a) the parameter tree, the model and the constraints of every problem hold the same values at all times; (b) nothing the user does to trees or dicts changes a problem; (c) a new problem takes exactly the values its tree shows along the submodels of the model, and changes nothing else; (d) modify_model_param has the effect of set_param on the parameters of this problem alone, raises exactly when set_param does, and no tree, dict or other problem changes, so that after any history the parameters of a problem are its initial ones changed by its own modifications in order; (e) set_param of a tree changes exactly those parameters, in all trees, that are kept in the same dict object under the same key; (f) from_dict(to_dict(t)) holds the same values and shares no dict with anything; (g) the loop of the example moves the four tires to the given parameters and no other node. Finding: after that loop set_param on one tire of the user's tree changes all four tires.", "quantifier": "all programs (finite sequences of the operations above), all trees, sharing patterns (including cycles), models, paths, values, both backends, all recursion limits", "why_tests_cant": "aliasing bugs appear only for particular sharing patterns and orders of operations; a test fixes one program, the claim is about all histories of operations over all object graphs.", "anchors": ["lumos/models/tree_utils.py: Tree, ParameterTree", "lumos/models/composition.py: CompositeModel.__init__, set_recursive_params, get_recursive_params", "lumos/optimal_control/scaled_mesh_ocp.py: ScaledMeshOCP.__init__, _set_model_params, modify_model_param", "lumos/optimal_control/convolution.py: ConvConstraints.set_params", "lumos/simulations/laptime_simulation.py: LaptimeSimulation.__init__", "examples/laptime_simulation_example.py: main"]}
{"id": "C63", "title": "The mesh and the scaling in double precision", "statement": "With IEEE double arithmetic (round to nearest even, gradual underflow, no overflow) instead of exact reals: (a) the checks set_normalized_mesh makes on user-given interval points are exact: accepted iff n+1 doubles, really increasing, first and last really less than the double 1e-6 from 0 and 1; otherwise ValueError; (b) the default mesh with up to 2^50 intervals starts at 0, ends at exactly 1, strictly increases, each point within 3 roundoffs (2^-53, relative) of i/n, interval lengths positive and within 6 roundoffs of 1/n; (c) with LGR points the default intervals join without a gap and end at exactly 1, points within 12 roundoffs, strictly increasing when the LGR points are 16n roundoffs apart; (d) user-given points: a two-stage mesh is exactly those points, an LGR interval starts exactly at its point, never decreases, ends within 3 roundoffs of the next point, exactly there from 0, when at most doubling, or at 1; (e) get_mesh_from_scale never reverses the order, keeps 0, sends 1 to exactly the scale, and on the default mesh is strictly increasing and within 4 roundoffs; (f) solve hands the solver bounds and guess divided by the scales and rounded: order, equality, infinity and feasibility of the guess are kept; the solution of a solver that stays inside its bounds is inside the user's bounds up to 3 roundoffs, exactly at bounds 0 and for scales that are powers of two. Not true, with witnesses: user LGR intervals always join (0, 0.2, 0.9, 1); a variable fixed to 0.9 with scale 10 comes back as 0.9; scaling keeps a mesh strictly increasing.", "quantifier": "all numbers of intervals up to 2^50, all double interval points, all double LGR points, all double scales, bounds, guesses and all solvers", "why_tests_cant": "a test runs a few meshes and scales; rounding depends on every bit of every number, and failures such as a one-ulp gap appear only for some of 2^64 inputs", "anchors": ["lumos/optimal_control/scaled_mesh_ocp.py: set_normalized_mesh, _flat_normalized_mesh, _normalized_interval_length, get_mesh_from_scale", "lumos/optimal_control/nlp.py: _construct_ipopt_problem, solve"]}
{"id": "C64", "title": "Scaled callbacks and continuity defects in double precision", "statement": "With IEEE double arithmetic (round to nearest even, gradual underflow, no overflow) instead of exact reals: (a) after any sequence of set_input_scales and set_con_scales the constraints, jacobian and hessian a constraint object gives the solver at x are the user's functions at one and the same point, x times the last input scales rounded, with multipliers divided by the last constraint scales and rounded; a constraint is the nearest double to the user's value over its scale, jacobian entries carry c_row/s_col with relative error at most 3 roundoffs (2^-53), hessian entries s_row*s_col with at most 4 (scales in 2^-200..2^200, values 0 or above 2^-500); an objective's value is exactly the user's function there and its gradient is within one roundoff; (b) the point solve returns is bitwise the point at which the callbacks of the solver's last iterate were evaluated; (c) scales that are powers of two change nothing: every entry is exact, and without scales the callbacks return the user's values exactly; (d) a continuity constraint with m stages, whatever the order and grouping of its sums and with or without fused multiply-add, differs from the exact defect by at most (m+4) roundoffs times the sum of the absolute values of its terms, plus an explicit underflow term; (e) so if the solver stops with a computed scaled defect of at most tol, the exact defect at the point the user gets is at most scale*tol (to two roundoffs) plus that bound. Not true, with witness: the computed defect is independent of the order of summation.", "quantifier": "all sizes and structures, all histories of setter calls, all user functions, all points, multipliers and scales in range, all summation orders and groupings", "why_tests_cant": "tests compare scaled and unscaled values to 1e-5 or so at a few points with one library; bounds on every entry for every scale and every order of summation are not testable, and the accuracy left after a solve cannot be measured with the same arithmetic", "anchors": ["lumos/optimal_control/nlp.py: BaseConstraints.constraints, jacobian, hessian, set_input_scales, set_con_scales, update_jac_scales, update_hess_scales, BaseObjective.objective, gradient, solve", "lumos/optimal_control/scaled_mesh_ocp.py: _continuity_constraints"]}
{"id": "C65", "title": "Array parameters of a model compiled with CasADi", "statement": "Raveling a parameter tree of numpy values and unraveling the flat vector gives the tree back (jax, numpy), and so does a tree of CasADi matrices with CasADi. A model compiled with CasADi, however, unravels a CasADi vector with the shapes of numpy parameters: it sees a tree of the same structure with parameters of the same dimensions, scalars, vectors, single rows and columns unchanged, but element (i, j) of a p by q matrix is element number j*p+i of the numpy matrix counted row by row. So a square matrix is seen transposed, every matrix with two rows, two columns and different elements is seen wrongly, and three-dimensional parameters cannot be compiled. Not true, with witnesses: that a model with matrix parameters (MLPAero, GPAero) computes the same with CasADi as with numpy or jax.", "quantifier": "all parameter trees, all shapes and elements, parameters changed between compiling and running", "why_tests_cant": "the tests convert each parameter to CasADi separately and never go through the flat vector with a matrix; random weights give no expected value to compare with", "anchors": ["lumos/models/tree_utils.py: _ravel_flat_dict, _ravel, _split, _concat, tree_ravel", "lumos/models/base.py: _make_casadi_model_algebra_cons, export_c_code", "lumos/optimal_control/convolution.py: set_params", "lumos/models/aero/aero.py: GPAero, MLPAero", "lumos/models/ml.py: gp, mlp"]}
{"id": "C66", "title": "One model object used by several problems", "statement": "When problems on one model object agree on the constraint outputs, and a parameter is set again between an evaluation by a jax or custom problem and the next construction of a problem or direct use of the model, every evaluation gives what the problem's own parameters and constraint outputs give, for every history and whatever signatures were traced before. Problems compiled with CasADi need no such care and may have different constraint outputs, except that batched_forward of every problem reports the constraint outputs of the problem made last. Not true, with theorems or witnesses: that evaluating a jax problem leaves the model usable (the first evaluation of each function leaves dead tracers as the model's parameters: model.forward and every problem made on the model raise a TypeError until a parameter is set); that a jax problem uses its own constraint outputs (they are read when a function is first evaluated); that evaluating a custom problem leaves the model's parameters alone.", "quantifier": "all sequences of constructing problems, evaluating their functions, setting parameters of problems and of the model and calling the model; all backends, all model functions, all jit signatures", "why_tests_cant": "the tests make one problem per model; what goes wrong depends on the order of construction, first evaluation and parameter changes", "anchors": ["lumos/models/base.py: make_model_algebra_cons, _make_jax_model_algebra_cons, _make_casadi_model_algebra_cons, _make_custom_model_algebra_cons, _apply_and_flat_implicit, apply_and_forward_with_arrays, batched_forward, set_con_outputs", "lumos/optimal_control/scaled_mesh_ocp.py: __init__, _set_model_params, modify_model_param", "lumos/optimal_control/nlp.py: JaxMappedConstraints"]}
{"id": "C67", "title": "Problems written against the abstract problem class", "statement": "For a subclass of NLPFunction that gives objective, constraints and num_dec (all of which may use attributes of the object): objective and constraints are evaluated with the attributes the object has; gradient, jacobian and hessian return the derivatives (the hessian: of obj_factor times the objective plus the multipliers times the constraints, at the positions of hessianstructure, which are those of the upper triangle, each once) for the attributes the object had when that derivative was first evaluated with arguments of these shapes. So they are the derivatives of the objective and constraints as long as no attribute changes. The iterate kept for logging is the argument of the last objective call, once the hessian has been evaluated. Not true, with theorems: that the derivatives follow a changed attribute, and that the iterate kept is a number array after the first hessian evaluation (it is a dead tracer).", "quantifier": "all subclasses with differentiable functions, all histories of attribute changes and evaluations, all points, multipliers and factors", "why_tests_cant": "the tests never change an object between two evaluations of a derivative; the result depends on which call came first", "anchors": ["lumos/optimal_control/nlp.py: NLPFunction (objective, gradient, jacobian, lagrangian, hessian, hessianstructure)"]}
{"id": "C68", "title": "Stateless models called with arrays", "statement": "forward_with_arrays of a stateless model (tires, aero) returns the outputs and residuals its forward gives for the inputs by name, as arrays in the declared order, with the parameters applied last; too few inputs raise IndexError, a declared output that forward does not return raises KeyError, what forward raises comes through, surplus inputs are ignored. get_input and get_output find elements by name. apply_and_forward changes the parameters for all later calls. Not true: that apply_and_forward_with_arrays works (it calls a method that does not exist, for every model, after changing the parameters) and that num_con_outputs is defined.", "quantifier": "all stateless models, names, inputs, parameters and histories of calls", "why_tests_cant": "order and missing-name behaviour range over all name lists and dictionaries; the broken method is never called by a test", "anchors": ["lumos/models/base.py: Model.apply_and_forward, Model.apply_and_forward_with_arrays, Model.forward_with_arrays, get_input, get_output, num_inputs, num_outputs, num_residuals, num_con_outputs, make_vector"]}
{"id": "C69", "title": "Scale arrays and constraint objects are shared, not copied", "statement": "Problems keep references to the constraint and objective objects added to them and to arrays of scales. In every program that gives an object to at most one problem, does not call the object's own setters afterwards and does not write to an array after handing it over, this cannot be noticed: all problems are, call for call and including the exceptions, what they would be with copies of their own; a call on one problem leaves all others unchanged; and unless a problem's scales are reset its pieces always use exactly the problem's decision variable scales, with jacobian and hessian scales derived from the current scales. Not true for other programs: a constraint added to two problems uses the scales of the one that was scaled last, writing to a scale array changes values but not derivatives, and set_default_scales leaves the pieces scaled.", "quantifier": "all programs (histories of calls creating arrays, constraints, objectives and problems, adding, deleting, rescaling in both the copying and the in-place way, resetting, evaluating)", "why_tests_cant": "aliasing bugs need particular interleavings of calls on several objects; absence of interference ranges over all histories", "anchors": ["lumos/optimal_control/nlp.py: BaseConstraints.set_input_scales, BaseConstraints.set_con_scales, BaseObjective.set_input_scales, CompositeProblem.add_constraints, CompositeProblem.add_objective, CompositeProblem.delete_constraints, CompositeProblem.set_default_scales", "lumos/optimal_control/scaled_mesh_ocp.py: ScaledMeshOCP.set_scales", "lumos/optimal_control/model_solver.py: ModelSolver._update_problem_scales"]}
{"id": "C70", "title": "Where the equations of the car are defined", "statement": "With every division and square root of the code checked: Perantoni's tire is defined exactly for two different reference loads, nonzero shape factors and loads at which no interpolated peak slip vanishes (with the default parameters: all loads but 38000 N and 46000 N); the track kinematics exactly for a car that moves along the road and is not at the centre of the bend; the vehicle exactly if it has masses, inertias, tracks and a wheelbase, its forward speed is not zero, the rear wheel speeds do not sum to zero, no contact patch is at rest along its wheel, and aero and tires are defined at the arguments the vehicle passes them (the static wheel loads, slips and patch speeds); the vehicle on track where both are. Where defined, the results are the ones of C41, C44 and C46. Within the default bounds of the laptime simulation the default car is defined whenever it slides less than it drives forward, does not yaw faster (rad/s) than half its speed (m/s), the assumed accelerations are at most 15 m/s^2 (MF52 tires) or 100 m/s^2 (Perantoni tires), and it is not beyond the centre of the bend. Refuted: the bounds alone do not ensure it (a car sliding at 45 degrees does not move along the road; a front contact patch can stand still; the assumed accelerations are unbounded, so a wheel can be without load), and a car at rest has no derivatives.", "quantifier": "all parameters, states, inputs, offsets, heading errors, curvatures, and all submodels that may be undefined somewhere", "why_tests_cant": "the undefined points are single surfaces in the space of states that random or sampled tests never hit, but an optimizer may be driven to", "anchors": ["lumos/models/vehicles/simple_vehicle.py:SimpleVehicle.forward", "lumos/models/tires/perantoni.py:PerantoniTire.forward", "lumos/models/kinematics.py:TrackPosition2D.forward", "lumos/models/simple_vehicle_on_track.py:SimpleVehicleOnTrack.forward", "lumos/simulations/laptime_simulation.py:get_default_bounds"]}
{"id": "C71", "title": "Derivatives are exact on the domain of the model", "statement": "The derivatives handed to the solver do not need a model that is differentiable everywhere: if the derivative functions of the model algebra are exact on an open set of states and inputs (any room to move along each coordinate), then at every vector of the solver whose physical values stay in that set at every stage (under the scales and parameters in force after any history of calls) the jacobian of the constraints and the hessian of the lagrangian are exact, the gradient is exact everywhere, and those vectors again form an open set. With automatic differentiation (the jax backend), exactness on the set needs only that the equations of the model are twice differentiable there. The set of vectors is described in physical quantities: the decision dictionary, times, mesh points.", "quantifier": "all models, open domains, transcriptions, meshes, scales, parameters, boundary conditions, histories, vectors of the solver, multipliers", "why_tests_cant": "finite difference tests sample a few points; the claim is about every point of an open set, with the domain carried through scaling, collocation and assembly", "anchors": ["lumos/optimal_control/nlp.py:BaseProblem.hessian", "lumos/optimal_control/nlp.py:BaseProblem.jacobian", "lumos/optimal_control/convolution.py:ConvConstraints", "lumos/models/base.py:Model.jac", "lumos/optimal_control/scaled_mesh_ocp.py:ScaledMeshOCP"]}
{"id": "C72", "title": "Laptime simulation derivatives are exact wherever the equations of the car are defined", "statement": "For the laptime simulation of the simple vehicle with Perantoni tires and any aero model whose lift and drag coefficients have second derivatives (constant aerodynamics among them; C74), with all derivatives by automatic differentiation: the equations of the car on its track are twice differentiable at every point where they are defined (C70), that set is open, and so the gradient, jacobian and hessian of the assembled problem are exact at every vector of the solver at whose stages the car is defined, after any history of calls. Moderate driving within the default bounds is in that set, and so is the initial guess the simulation itself makes. Refuted: the equations are not differentiable everywhere, for any vehicle (the car at rest), so no global exactness hypothesis can be met by any vehicle.", "quantifier": "all vehicle parameters, tire parameters, twice differentiable aero models, tracks, transcriptions, meshes, scales, histories, vectors", "why_tests_cant": "the set of points where the equations are defined is uncountable, with boundary surfaces of measure zero; derivative tests sample a handful of points", "anchors": ["lumos/simulations/laptime_simulation.py:LaptimeSimulation", "lumos/models/simple_vehicle_on_track.py:SimpleVehicleOnTrack.forward", "lumos/models/vehicles/simple_vehicle.py:SimpleVehicle.forward", "lumos/models/tires/perantoni.py:PerantoniTire.forward", "lumos/models/base.py:Model.jac"]}
{"id": "C73", "title": "The helpers of the model tests: rollouts and backends", "statement": "A forward Euler rollout over n+1 steps returns exactly the end of a path on which every state moves by the time step times its derivative at the beginning of the step, with the model evaluated at step number times time step; it fails exactly where the model fails on the path or gives no derivative for a state. The path satisfies the continuity condition of the ForwardEuler transcription, and if the model is Lipschitz along the path and has a twice differentiable motion, the end of the rollout is within exp(K T)(e0 + T M h) of the motion. A test decorated to run under several backends leaves the backend as it found it whatever the test does, and runs once per name, in order, under the backend of that name. Refuted: the outputs returned belong to the returned state (they belong to the one a step earlier; with zero steps the call raises NameError); the initial states are protected (only when they are floats: arrays are overwritten with the final states); a name that is not a backend is an error (the test runs, and passes, under the current backend).", "quantifier": "all models, initial states, inputs, time steps and numbers of steps; all lists of backend names and all tests, including ones that raise or change the backend", "why_tests_cant": "the rollout is itself a test helper; that it agrees with the transcription and converges concerns all models and step sizes, and the overwriting of arrays depends on the aliasing of the arguments", "anchors": [{"file": "lumos/models/test_utils.py", "symbol": "BaseStateSpaceModelTest._forward_euler"}, {"file": "lumos/models/test_utils.py", "symbol": "use_backends"}]}
{"id": "C74", "title": "The aero models of the package keep the derivatives of the laptime simulation exact", "statement": "Constant aerodynamics, the Gaussian process aero model and the neural network aero model (with points, weights and parameters of fitting shapes) each return lift and drag coefficients that are, as functions of forward speed, lateral speed and yaw rate and of anything these depend on, twice differentiable everywhere; so with any of them the domain of C70 is open, the equations of the car on its track are twice differentiable on it, and (C72) the derivatives handed to the solver are exact there.", "quantifier": "all data points, weight matrices, layer counts and widths, parameter dictionaries, vehicles, points", "why_tests_cant": "differentiability at every point, for every number of points, layers and weights, is not observable by sampling", "anchors": ["lumos/models/aero/aero.py:ConstAero.forward", "lumos/models/aero/aero.py:GPAero.forward", "lumos/models/aero/aero.py:MLPAero.forward", "lumos/models/ml.py:gp", "lumos/models/ml.py:mlp", "lumos/models/ml.py:rbf_kernel"]}
{"id": "C75", "title": "The forces of the MF5.2 tire are twice differentiable where its curves have no kinks, zero slip included", "statement": "For the MF5.2 tire with constant camber: where the load and the slips depend twice differentiably on something and the tire is at a smooth point (both forces have a peak and a slope, no curvature is just at its limit 1 on either side of zero slip, the weights of combined slip are defined), the longitudinal and the lateral force that the tire returns are twice differentiable too; zero slip is not excluded, although the curvature coefficient jumps there. The smooth points form an open set. For the default tire every load from 3250 N to 17300 N is smooth, whatever the slips.", "quantifier": "all coefficients, loads, slips, camber angles, modes, and all functions giving the loads and slips", "why_tests_cant": "second derivatives at every point, in particular across the switch at zero slip, cannot be sampled; a kink is a set of measure zero", "anchors": ["lumos/models/tires/pacejka.py:MF52.forward", "lumos/models/tires/pacejka.py:MF52._calculate_Fx0", "lumos/models/tires/pacejka.py:MF52._calculate_Fy0"]}
{"id": "C76", "title": "The laptime simulation with any smooth tires, the MF5.2 tire in particular, gives the solver exact derivatives", "statement": "If the forces of the tires are twice differentiable on an open set of loads and slips, then the equations of the vehicle on its track are twice differentiable, with any aero model that is, on an open set of states and inputs: the wheels' loads and slips are in that set and the conditions of C70 on the car and the road hold. There the gradient, the Jacobian and the Hessian of the Lagrangian that automatic differentiation hands the solver in a laptime simulation, whatever its configuration, tracks and history of calls, are the exact derivatives of the objective and the constraints it is given. Perantoni's tires satisfy this wherever they are defined, and the MF5.2 tire at its smooth points (C75); with the default vehicle and the default MF5.2 tire, driving within the bounds at up to 4 m/s2 of assumed acceleration, and the initial guess, are inside.", "quantifier": "all tires whose forces have second derivatives on an open set, all coefficients, aero models, vehicles, configurations, tracks, histories of calls, points of the domain", "why_tests_cant": "derivatives at every point of an open set, for every tire model and every problem built from it, are not observable by sampling", "anchors": ["lumos/models/tires/pacejka.py:MF52.forward", "lumos/models/tires/perantoni.py:PerantoniTire.forward", "lumos/models/vehicles/simple_vehicle.py:SimpleVehicle.forward", "lumos/models/simple_vehicle_on_track.py:SimpleVehicleOnTrack.forward", "lumos/simulations/laptime_simulation.py:LaptimeSimulation"]}
