(** Model of a whole optimal control problem: the constructors ScaledMeshOCP.__init__ (scaled_mesh_ocp.py:77-150, problem not condensed)
    and FixedMeshOCP.__init__ (fixed_mesh_ocp.py:22-35), the methods that change the problem afterwards, and [solve] (191-204).
    The pieces are the models of the other files: names and mesh (OcpModel), model algebra (AlgModel, ConvModel), continuity (OcpModel),
    cyclic (CyclicModel), objective (ObjModel), bounds (BoundModel), scales (ScaleModel), composite problem (NlpModel). *)
From Verif Require Import Base RBase TreeModel UtilsModel IoModel CollocModel MeshModel OcpModel NlpModel AlgModel ConvModel CyclicModel ObjModel BoundModel ScaleModel.

Section Build.
(** root finder of the transcription, as in CollocModel *)
Variable roots : list R -> list R.
Context {P : Type}.
(** the model (models/base.py): its names; [forward] with the parameters of type [P]; the derivatives of the model algebra made by
    [make_model_algebra_cons(backend)] (base.py:604-660) — values and structures come from casadi/jax or from the user and stay abstract *)
Record smodel := {
  m_states : list string; m_inputs : list string; m_outputs : list string; m_residuals : list string;
  m_forward : P -> dict R -> dict R -> R -> result (dict R * dict R);
  m_jac : list string -> list R -> R -> P -> list R;
  m_hess : list string -> list R -> list R -> R -> P -> list R;
  m_js : list string -> list nat * list nat;
  m_hs : list string -> list nat * list nat }.

(** config.py:81-161 [SimConfig]: the fields that the constructor reads (see CfgModel for the class itself) *)
Record sim_config := {
  cf_n : nat; cf_points : option (list R); cf_tname : string; cf_tns : option nat;
  cf_cyclic : bool; cf_noncyclic : list string; cf_con : list string;
  cf_bounds : list bound_config; cf_bcs : list bc_config; cf_scales : list scale_config;
  cf_pen : option (dict R) }.   (* the weights of the input penalty, in a class that has one (laptime_simulation.py:236-253; there a default argument, not a field) *)

(** base.py:62-80, 476-480: the names by group once the constrained outputs are set *)
Definition names_of (M : smodel) (con : list string) (g : string) : list string :=
  match dget g (model_names (m_states M) (m_inputs M) (m_outputs M) con (m_residuals M)) with Some l => l | None => [] end.

(** base.py:604-660: the unit problem "model_algebra": implicit residual of one stage.  Simplification: an exception in [forward] is an
    empty array (as in ConvModel) *)
Definition unit_problem (M : smodel) (con : list string) : unitp P :=
  {| u_nin := num_implicit_var (names_of M con); u_ncon := num_implicit_res (names_of M con);
     u_f := fun w m p => ok_or_nil (flat_implicit (names_of M con) (m_forward M p) w m);
     u_j := m_jac M con; u_h := m_hess M con; u_js := m_js M con; u_hs := m_hs M con |}.

(** the attributes of the problem object *)
Record attrs := {
  a_o : ocp;                        (* sizes, transcription, mesh, mesh scale *)
  a_con : list string;              (* constrained outputs *)
  a_pen : option (dict R);          (* weights of the input penalty *)
  a_amesh : list R;                 (* the mesh array held by the model_algebra constraints (given to ConvConstraints once) *)
  a_p : P;                          (* parameters *)
  a_cyc : option (list string);     (* _cyclic_vars *)
  a_bd : bst;                       (* lb, ub, boundary conditions *)
  a_sc : sst }.                     (* scales *)

Definition or_nil {A} (r : result (list A)) : list A := ok_or_nil r.
Definition or_zero (r : result R) : R := match r with Ok v => v | Raise _ => 0 end.

(** scaled_mesh_ocp.py:1310-1345 and fixed_mesh_ocp.py:99-112 [_build_objective].
    Simplification as above: an exception during an evaluation is an empty array or 0 here *)
Definition time_obj (o : ocp) : result bobj :=
  match oc_fixed o with
  | None => make_obj (num_dec (oc_op o)) (fun x => or_zero (time_objective_scaled o x)) (fun x => or_nil (time_gradient_scaled o x)) (fun _ => []) (Some ([], []))
  | Some _ => make_obj (num_dec (oc_op o)) (fun x => or_zero (time_objective_fixed o x)) (fun x => or_nil (time_gradient_fixed o x)) (fun _ => []) (Some ([], []))
  end.
(** laptime_simulation.py:214-223, 236-271: the penalty on the inputs *)
Definition penalty_obj (o : ocp) (w : dict R) : result bobj :=
  bind (inputs_penalty_hessian_structure o) (fun hs =>
  make_obj (num_dec (oc_op o)) (fun x => or_zero (inputs_penalty o w x)) (fun x => or_nil (inputs_penalty_grad o w x)) (fun x => or_nil (inputs_penalty_hessian o w x)) (Some hs)).
(** scaled_mesh_ocp.py:1281-1297 [_build_model_algebra]; the scale function is the bound method [_get_mesh_scale] *)
Definition algebra_con (M : smodel) (a : attrs) : result bcon :=
  make_conv (unit_problem M (a_con a)) (oc_op (a_o a)) (a_amesh a) (fun x => or_zero (get_mesh_scale (a_o a) x)) (a_p a).
(** scaled_mesh_ocp.py:1238-1249; fixed_mesh_ocp.py:74-97 (linear, the jacobian is not cached) *)
Definition continuity_con (o : ocp) : result bcon :=
  bind (continuity_jacobianstructure o) (fun js =>
  match oc_fixed o with
  | None =>
      bind (continuity_hessianstructure o) (fun hs =>
      make_con (num_dec (oc_op o)) (num_continuity_cons o) (fun x => or_nil (continuity_constraints o x)) (fun x => or_nil (continuity_jacobian o x))
        (fun _ lam => or_nil (continuity_hessian o lam)) (Some js) (Some hs))
  | Some _ => make_linear (num_dec (oc_op o)) (num_continuity_cons o) (fun x => or_nil (continuity_constraints o x)) (fun x => or_nil (continuity_jacobian o x)) js false
  end).
(** scaled_mesh_ocp.py:1299-1308 [_build_cyclic_cons] *)
Definition cyclic_con (o : ocp) (cv : list string) : result bcon :=
  bind (cyclic_jacobianstructure o cv) (fun js =>
  make_linear (num_dec (oc_op o)) (List.length cv) (fun x => or_nil (cyclic_constraint o cv x)) (fun x => or_nil (cyclic_jacobian o cv x)) js true).

(** scaled_mesh_ocp.py:112-121: the composite problem with unit scales; [_build_objective] adds the time objective and, in LaptimeSimulation
    (laptime_simulation.py:201-223), the input penalty *)
Definition raw_problem (M : smodel) (a : attrs) : result prob :=
  bind (bind (time_obj (a_o a)) (add_objective (make_prob (num_dec (oc_op (a_o a)))) "time")) (fun p0 =>
  bind (match a_pen a with None => Ok p0 | Some w => bind (penalty_obj (a_o a) w) (add_objective p0 "inputs_penalty") end) (fun p1 =>
  bind (bind (algebra_con M a) (add_constraints p1 "model_algebra")) (fun p2 =>
  bind (bind (continuity_con (a_o a)) (add_constraints p2 "continuity")) (fun p3 =>
  match a_cyc a with
  | None => Ok p3
  | Some cv => bind (cyclic_con (a_o a) cv) (add_constraints p3 "cyclic")
  end)))).

(** [self._constraints[name].set_con_scales(s)] *)
Definition scale_con (name : string) (s : list R) (p : prob) : result prob :=
  bind (lookup_err name (p_cons p)) (fun c => bind (set_con_scales c s) (fun c' => Ok (NlpModel.set_cons p (dset name c' (p_cons p))))).
(** The composite problem as it is when the attributes are [a]: constraints and objective hold bound methods, so they read the
    attributes at the time of the call; the scales are those last pushed (scaled_mesh_ocp.py:683-722). *)
Definition problem_of (M : smodel) (a : attrs) : result prob :=
  bind (raw_problem M a) (fun p =>
  bind (set_dec_var_scales p (s_pushed (a_sc a))) (fun p =>
  bind (scale_con "model_algebra" (s_alg (a_sc a)) p) (fun p =>
  bind (scale_con "continuity" (s_cont (a_sc a)) p) (fun p =>
  Ok {| p_n := p_n p; p_cons := p_cons p; p_objs := p_objs p; p_triu := p_triu p; p_scales := s_dec (a_sc a) |})))).

Definition with_bd (a : attrs) (b : bst) : attrs := {| a_o := a_o a; a_con := a_con a; a_pen := a_pen a; a_amesh := a_amesh a; a_p := a_p a; a_cyc := a_cyc a; a_bd := b; a_sc := a_sc a |}.
Definition with_sc (a : attrs) (s : sst) : attrs := {| a_o := a_o a; a_con := a_con a; a_pen := a_pen a; a_amesh := a_amesh a; a_p := a_p a; a_cyc := a_cyc a; a_bd := a_bd a; a_sc := s |}.
Definition with_o (a : attrs) (o : ocp) : attrs := {| a_o := o; a_con := a_con a; a_pen := a_pen a; a_amesh := a_amesh a; a_p := a_p a; a_cyc := a_cyc a; a_bd := a_bd a; a_sc := a_sc a |}.
Definition with_p (a : attrs) (p : P) : attrs := {| a_o := a_o a; a_con := a_con a; a_pen := a_pen a; a_amesh := a_amesh a; a_p := p; a_cyc := a_cyc a; a_bd := a_bd a; a_sc := a_sc a |}.

(** ** The methods that change the problem *)
Inductive scall :=
| SBounds (bs : list bound_config)       (* update_bounds, 623-638 *)
| SBCs (l : list bc_config)              (* update_boundary_conditions, 724-730 *)
| SScales (scs : list scale_config)      (* set_scales, 640-722 *)
| SParams (p : P)                        (* _set_model_params, 157-165; modify_model_param (167-170) ends in it *)
| SMeshScale (s : R)                     (* FixedMeshOCP.set_mesh_scale, fixed_mesh_ocp.py:37-41 *)
| SMesh (points : option (list R)).      (* set_normalized_mesh, 472-528 *)

Definition with_fixed (o : ocp) (s : R) : ocp := {| oc_op := oc_op o; oc_tr := oc_tr o; oc_mesh := oc_mesh o; oc_fixed := Some s; oc_nres := oc_nres o |}.
Definition with_mesh (o : ocp) (m : list (list R)) : ocp := {| oc_op := oc_op o; oc_tr := oc_tr o; oc_mesh := m; oc_fixed := oc_fixed o; oc_nres := oc_nres o |}.

(** state after the call and outcome.  SMesh changes the mesh attribute only: the array in the model_algebra constraints stays *)
Definition scall_step (a : attrs) (c : scall) : attrs * result unit :=
  match c with
  | SBounds bs => let r := update_bounds (oc_op (a_o a)) bs (a_bd a) in (with_bd a (fst r), snd r)
  | SBCs l => let r := update_bcs (oc_op (a_o a)) l (a_bd a) in (with_bd a (fst r), snd r)
  | SScales scs => let r := set_scales (a_o a) false (a_sc a) scs in (with_sc a (fst r), snd r)
  | SParams p => (with_p a p, Ok tt)
  | SMeshScale s => match oc_fixed (a_o a) with Some _ => (with_o a (with_fixed (a_o a) s), Ok tt) | None => (a, Raise AttributeError) end
  | SMesh pts => let r := set_normalized_mesh (num_intervals (a_o a)) (oc_tr (a_o a)) (oc_mesh (a_o a)) pts in (with_o a (with_mesh (a_o a) (fst r)), snd r)
  end.

(** ** The constructor *)
Definition check (r : attrs * result unit) : result attrs := match snd r with Ok _ => Ok (fst r) | Raise e => Raise e end.
Definition construct (M : smodel) (cfg : sim_config) (fixed : option R) (p : P) : result attrs :=
  bind (make_ocp roots (cf_tname cfg) (cf_tns cfg) (cf_n cfg) (m_states M) (m_inputs M) (m_outputs M) (cf_con cfg) (m_residuals M) (cf_points cfg) fixed) (fun o =>
  bind (flat_mesh (oc_mesh o)) (fun fm =>
  bind (if cf_cyclic cfg then fmap Some (build_cyclic_vars o (cf_noncyclic cfg)) else Ok None) (fun cyc =>
  let a0 := {| a_o := o; a_con := cf_con cfg; a_pen := cf_pen cfg; a_amesh := fm; a_p := p; a_cyc := cyc; a_bd := init_bounds (oc_op o); a_sc := init_scales o |} in
  bind (raw_problem M a0) (fun _ =>
  bind (check (scall_step a0 (SBounds (cf_bounds cfg)))) (fun a1 =>
  bind (check (scall_step a1 (SBCs (cf_bcs cfg)))) (fun a2 =>
  check (scall_step a2 (SScales (cf_scales cfg))))))))).

(** a history of successful calls on a constructed problem *)
Fixpoint calls (a : attrs) (cs : list scall) : result attrs :=
  match cs with [] => Ok a | c :: r => bind (check (scall_step a c)) (fun a' => calls a' r) end.
Definition history (M : smodel) (cfg : sim_config) (fixed : option R) (p : P) (cs : list scall) : result attrs :=
  bind (construct M cfg fixed p) (fun a => calls a cs).

(** scaled_mesh_ocp.py:191-204 [solve] (logging and jit warm-up left out); 782-785 [set_cons]: all constraints are equalities *)
Definition ocp_solve (M : smodel) (ipopt : ipopt_problem -> list R -> list R * Z) (a : attrs) (guess : list R) : result (list R * Z) :=
  bind (problem_of M a) (fun p =>
  let zero := repeat (Fin 0) (num_con p) in
  fmap snd (solve ipopt p (lbs (a_bd a)) (ubs (a_bd a)) zero zero guess)).
End Build.
Arguments smodel P : clear implicits.
Arguments attrs P : clear implicits.
Arguments scall P : clear implicits.
