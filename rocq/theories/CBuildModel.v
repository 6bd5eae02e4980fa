(** Model of a whole optimal control problem in condensed form: ScaledMeshOCP.__init__ with is_condensed (scaled_mesh_ocp.py:77-150), the methods that
    change the problem afterwards, and [solve].  The full form is BuildModel; the condensed functions are CondModel. *)
From Verif Require Import Base RBase TreeModel UtilsModel IoModel CollocModel MeshModel OcpModel NlpModel AlgModel ConvModel CyclicModel ObjModel BoundModel ScaleModel BuildModel CondModel.

Section CBuild.
Variable roots : list R -> list R.
Context {P : Type}.

(** scaled_mesh_ocp.py:132-139: the bounds appended to the configuration of the caller ([sim_config.bounds += ...] assigns to the attribute of the
    object that was passed) *)
Definition zero_dots (M : smodel P) (con : list string) : list bound_config :=
  map (fun n => {| bg := "states_dot"; bn := n; bv := BSc (Fin 0) (Fin 0) |}) (names_of M con "states_dot").
(** the configuration object of the caller once the constructor has run *)
Definition config_after (M : smodel P) (cfg : sim_config) : sim_config :=
  {| cf_n := cf_n cfg; cf_points := cf_points cfg; cf_tname := cf_tname cfg; cf_tns := cf_tns cfg; cf_cyclic := cf_cyclic cfg; cf_noncyclic := cf_noncyclic cfg;
     cf_con := cf_con cfg; cf_bounds := cf_bounds cfg ++ zero_dots M (cf_con cfg); cf_bcs := cf_bcs cfg; cf_scales := cf_scales cfg; cf_pen := cf_pen cfg |}.

(** the attributes of a condensed problem: those of a full one ([a_p] is self._params), the parameters held by the stored model algebra, and the
    sparsity structure found at construction *)
Record cattrs := { k_a : attrs P; k_p : P; k_js : list nat * list nat }.
Definition with_a (k : cattrs) (a : attrs P) : cattrs := {| k_a := a; k_p := k_p k; k_js := k_js k |}.

(** models/base.py:621-628 [batched_forward] over the rows of the batch: states_dot *)
Definition dots_of (M : smodel P) (con : list string) (p : P) (X U : list (list R)) (mesh : list R) : list (list R) :=
  map (fun k => match forward_with_arrays (names_of M con) (m_forward M p) (nth k X []) (nth k U []) (vget k mesh) with Ok (sd, _, _, _) => sd | Raise _ => [] end) (seq 0 (List.length X)).

Definition nimp_of (M : smodel P) (k : cattrs) : nat := num_implicit_res (names_of M (a_con (k_a k))).
(** scaled_mesh_ocp.py:1251-1279 [_build_condensed_model_algebra]: the constraints object; [alg] is the stored model algebra.
    Simplification as in BuildModel: an exception during an evaluation is an empty array *)
Definition condensed_con (M : smodel P) (k : cattrs) (alg : bcon) : result bcon :=
  let o := a_o (k_a k) in
  make_con (num_dec (oc_op o)) (num_condensed o (nimp_of M k)) (fun x => or_nil (condensed_constraints o alg x))
    (fun x => or_nil (condensed_jacobian o alg (nimp_of M k) (dots_of M (a_con (k_a k)) (a_p (k_a k))) (or_nil (flat_mesh (oc_mesh o))) (k_js k) x))
    (fun x lam => or_nil (condensed_hessian o alg (nimp_of M k) x lam)) (Some (k_js k)) (Some (condensed_hessianstructure o alg)).
(** scaled_mesh_ocp.py:1251-1279: the two constraints leave the problem, the condensed ones take their place at the end *)
Definition condense (M : smodel P) (k : cattrs) (pr : prob) : result prob :=
  bind (lookup_err "model_algebra" (p_cons pr)) (fun alg =>
  bind (lookup_err "continuity" (p_cons pr)) (fun _ =>
  bind (delete_constraints pr "model_algebra") (fun p1 =>
  bind (delete_constraints p1 "continuity") (fun p2 =>
  bind (condensed_con M k alg) (add_constraints p2 "model_algebra"))))).
(** the problem with unit scales: the stored model algebra holds its own parameters *)
Definition craw (M : smodel P) (k : cattrs) : result prob := bind (raw_problem M (with_p (k_a k) (k_p k))) (condense M k).
(** as [problem_of]: the scales last pushed (scaled_mesh_ocp.py:696-722, condensed branch) *)
Definition cproblem_of (M : smodel P) (k : cattrs) : result prob :=
  bind (craw M k) (fun p =>
  bind (set_dec_var_scales p (s_pushed (a_sc (k_a k)))) (fun p =>
  bind (scale_con "model_algebra" (s_alg (a_sc (k_a k))) p) (fun p =>
  Ok {| p_n := p_n p; p_cons := p_cons p; p_objs := p_objs p; p_triu := p_triu p; p_scales := s_dec (a_sc (k_a k)) |}))).

(** the methods.  scaled_mesh_ocp.py:157-165 [_set_model_params] assigns self._params, then calls [set_params] of the "model_algebra" constraints, which
    are plain BaseConstraints here and have no such method *)
Definition cstep (k : cattrs) (c : scall P) : cattrs * result unit :=
  match c with
  | SScales scs => let r := set_scales (a_o (k_a k)) true (a_sc (k_a k)) scs in (with_a k (with_sc (k_a k) (fst r)), snd r)
  | SParams p => (with_a k (with_p (k_a k) p), Raise AttributeError)
  | _ => let r := scall_step (k_a k) c in (with_a k (fst r), snd r)
  end.
Definition ccheck (r : cattrs * result unit) : result cattrs := match snd r with Ok _ => Ok (fst r) | Raise e => Raise e end.

(** scaled_mesh_ocp.py:77-150 [__init__]; [x0] is the random vector drawn by [_condensed_jacobianstructure] (346) *)
Definition cconstruct (M : smodel P) (cfg : sim_config) (fixed : option R) (p : P) (x0 : list R) : result cattrs :=
  bind (make_ocp roots (cf_tname cfg) (cf_tns cfg) (cf_n cfg) (m_states M) (m_inputs M) (m_outputs M) (cf_con cfg) (m_residuals M) (cf_points cfg) fixed) (fun o =>
  bind (flat_mesh (oc_mesh o)) (fun fm =>
  bind (if cf_cyclic cfg then fmap Some (build_cyclic_vars o (cf_noncyclic cfg)) else Ok None) (fun cyc =>
  let a0 := {| a_o := o; a_con := cf_con cfg; a_pen := cf_pen cfg; a_amesh := fm; a_p := p; a_cyc := cyc; a_bd := init_bounds (oc_op o); a_sc := init_scales o |} in
  bind (raw_problem M a0) (fun pr =>
  bind (lookup_err "model_algebra" (p_cons pr)) (fun alg =>
  bind (condensed_jacobianstructure o alg (num_implicit_res (names_of M (cf_con cfg))) x0) (fun js =>
  let k0 := {| k_a := a0; k_p := p; k_js := js |} in
  bind (condense M k0 pr) (fun _ =>
  bind (ccheck (cstep k0 (SBounds (cf_bounds (config_after M cfg))))) (fun k1 =>
  bind (ccheck (cstep k1 (SBCs (cf_bcs cfg)))) (fun k2 =>
  ccheck (cstep k2 (SScales (cf_scales cfg)))))))))))).
(** a history of successful calls *)
Fixpoint ccalls (k : cattrs) (cs : list (scall P)) : result cattrs :=
  match cs with [] => Ok k | c :: r => bind (ccheck (cstep k c)) (fun k' => ccalls k' r) end.
Definition chistory (M : smodel P) (cfg : sim_config) (fixed : option R) (p : P) (x0 : list R) (cs : list (scall P)) : result cattrs :=
  bind (cconstruct M cfg fixed p x0) (fun k => ccalls k cs).

(** scaled_mesh_ocp.py:191-204 [solve], 782-785 [set_cons] *)
Definition csolve (M : smodel P) (ipopt : ipopt_problem -> list R -> list R * Z) (k : cattrs) (guess : list R) : result (list R * Z) :=
  bind (cproblem_of M k) (fun p =>
  let zero := repeat (Fin 0) (num_con p) in
  fmap snd (solve ipopt p (lbs (a_bd (k_a k))) (ubs (a_bd (k_a k))) zero zero guess)).
End CBuild.
Arguments cattrs P : clear implicits.
