(** Model of examples/brachistochrone.py: the bead on a wire, in the time and in the distance domain, the hand-written derivatives, the reference
    solution and the two optimal control problems.  Numbers are reals. *)
From Verif Require Import Base RBase TreeModel UtilsModel IoModel CasModel CollocModel MeshModel OcpModel NlpModel AlgModel BoundModel ScaleModel ObjModel BuildModel LapModel.
From Verif Require NumpyModel.
From Coq Require Export Rtrigo1.

(** brachistochrone.py:20-48 [cycloid]; [theta2] is what scipy's [newton] returned for [f]; (x, y, T) *)
Definition cycloid_f (dx dy theta : R) : R := - dy / dx - (1 - cos theta) / (theta - sin theta).
Definition cycloid (dx dy : R) (N : nat) (g theta2 : R) : list R * list R * R :=
  let r := - dy / (1 - cos theta2) in
  let theta := linspace 0 theta2 N in
  (map (fun t => r * (t - sin t)) theta, map (fun t => - (r * (1 - cos t))) theta, theta2 * sqrt (r / g)).

(** brachistochrone.py:51-51 *)
Definition time_states : list string := ["v"; "x"; "y"].
Definition brach_inputs : list string := ["theta"].
Definition time_outputs : list string := ["theta"].
(** brachistochrone.py:60-77 [TimeModel.forward]: (states_dot, outputs) *)
Definition time_forward (params states inputs : dict R) : result (dict R * dict R) :=
  bind (lookup_err "theta" inputs) (fun theta =>
  bind (lookup_err "v" states) (fun v =>
  bind (lookup_err "gravity" params) (fun gravity =>
  let v_dot := - gravity * sin theta in
  let dx_dt := cos theta * v in
  let dy_dt := sin theta * v in
  bind (make_dict time_states [("v", v_dot); ("x", dx_dt); ("y", dy_dt)]) (fun states_dot =>
  bind (make_dict time_outputs [("theta", theta)]) (fun outputs => Ok (states_dot, outputs)))))).

(** brachistochrone.py:221-221 *)
Definition dist_states : list string := ["time"; "v"; "y"].
(** brachistochrone.py:236-258 [DistanceModel.forward]; there are no outputs *)
Definition dist_forward (params states inputs : dict R) : result (dict R * dict R) :=
  bind (lookup_err "theta" inputs) (fun theta =>
  bind (lookup_err "gravity" params) (fun gravity =>
  let dv_dt := - gravity * sin theta in
  bind (lookup_err "v" states) (fun v =>
  let vx := v * cos theta in
  let v_dot := dv_dt / (vx + / 1000000000) in
  let time_dot := 1 / (vx + / 1000000000) in
  let y_dot := tan theta in
  bind (make_dict dist_states [("time", time_dot); ("v", v_dot); ("y", y_dot)]) (fun states_dot => Ok (states_dot, []))))).
(** brachistochrone.py:80-81, 216-217, 261-262 [get_default_params] *)
Definition brach_default_params : dict R := [("gravity", 981 / 100)].

(** ** the hand-written derivatives; [nm] gives the names of a group, with the constrained outputs the user chose *)
Section Custom.
Variable nm : string -> list string.
Definition group (g : string) (x : list R) : list R := match dget g (split_flat nm x) with Some v => v | None => [] end.
(** base.py:319-320, 505-506 [get_input], [get_state] *)
Definition get_var (g n : string) (l : list R) : result R :=
  bind (get_var_index (nm g) n) (fun i => match nth_error l i with Some v => Ok v | None => Raise IndexError end).
(** brachistochrone.py:92-118 [_implicit_jac] *)
Definition custom_jac (gravity : R) (x : list R) : result (list R) :=
  bind (get_var "inputs" "theta" (group "inputs" x)) (fun theta =>
  bind (get_var "states" "v" (group "states" x)) (fun v =>
  let dvdot_dtheta := - gravity * cos theta in
  let ddxdt_dtheta := - sin theta * v in
  let ddxdt_dv := cos theta in
  let ddydt_dtheta := cos theta * v in
  let ddydt_dv := sin theta in
  Ok ([dvdot_dtheta; ddxdt_dtheta; ddxdt_dv; ddydt_dtheta; ddydt_dv] ++ map Ropp (repeat 1 (List.length (nm "states")))))).
(** brachistochrone.py:120-154 [_implicit_jacobianstructure] *)
Definition custom_js : result (list nat * list nat) :=
  bind (mapM (get_var_index (nm "states")) ["v"; "x"; "x"; "y"; "y"]) (fun model_rows =>
  bind (mapM (fun gn => get_var_index_in_flat nm (fst gn) (snd gn)) [("inputs", "theta"); ("inputs", "theta"); ("states", "v"); ("inputs", "theta"); ("states", "v")]) (fun model_cols =>
  bind (mapM (get_var_index_in_flat nm "states_dot") (nm "states_dot")) (fun states_dot_cols =>
  Ok (model_rows ++ seq 0 (List.length (nm "states")), model_cols ++ states_dot_cols)))).
(** brachistochrone.py:156-192 [_implicit_hess] *)
Definition custom_hess (gravity : R) (x mult : list R) : result (list R) :=
  bind (get_var "inputs" "theta" (group "inputs" x)) (fun theta =>
  bind (get_var "states" "v" (group "states" x)) (fun v =>
  let d2vdot_dtheta2 := gravity * sin theta in
  let d2dxdt_dtheta2 := - cos theta * v in
  let d2dxdt_dtheta_dv := - sin theta in
  let d2dydt_dtheta2 := - sin theta * v in
  let d2dydt_dtheta_dv := cos theta in
  bind (get_var "states" "v" mult) (fun mv => bind (get_var "states" "x" mult) (fun mx => bind (get_var "states" "y" mult) (fun my =>
  let d2l_dtheta2 := d2vdot_dtheta2 * mv + d2dxdt_dtheta2 * mx + d2dydt_dtheta2 * my in
  let d2l_dtheta_dv := d2dxdt_dtheta_dv * mx + d2dydt_dtheta_dv * my in
  Ok [d2l_dtheta2; d2l_dtheta_dv; d2l_dtheta_dv]))))).
(** brachistochrone.py:194-213 [_implicit_hessianstructure] *)
Definition custom_hs : result (list nat * list nat) :=
  bind (mapM (fun gn => get_var_index_in_flat nm (fst gn) (snd gn)) [("inputs", "theta"); ("inputs", "theta"); ("states", "v")]) (fun rows =>
  bind (mapM (fun gn => get_var_index_in_flat nm (fst gn) (snd gn)) [("inputs", "theta"); ("states", "v"); ("inputs", "theta")]) (fun cols =>
  Ok (rows, cols))).
End Custom.

(** [TimeModel] as the model of a problem, with the derivatives of jax or casadi left abstract; the parameter is the gravity *)
Definition time_model (jac : list string -> list R -> R -> R -> list R) (hess : list string -> list R -> list R -> R -> R -> list R) (js hs : list string -> list nat * list nat) : smodel R := {|
  m_states := time_states; m_inputs := brach_inputs; m_outputs := time_outputs; m_residuals := [];
  m_forward := fun g ds di _ => time_forward [("gravity", g)] ds di;
  m_jac := jac; m_hess := hess; m_js := js; m_hs := hs |}.
(** ... and with the hand-written derivatives (backend "custom", base.py:756-769) *)
Definition or_nil {A} (r : result (list A)) : list A := match r with Ok l => l | Raise _ => [] end.
Definition or_nil2 {A} (r : result (list A * list A)) : list A * list A := match r with Ok l => l | Raise _ => ([], []) end.
Definition brach_names (con : list string) (g : string) : list string :=
  match dget g (model_names time_states brach_inputs time_outputs con []) with Some l => l | None => [] end.
Definition custom_model : smodel R :=
  time_model (fun con w _ g => or_nil (custom_jac (brach_names con) g w)) (fun con w m _ g => or_nil (custom_hess (brach_names con) g w m))
             (fun con => or_nil2 (custom_js (brach_names con))) (fun con => or_nil2 (custom_hs (brach_names con))).

(** brachistochrone.py:265-291 the configuration of the time domain; config.py:124-136: the defaults *)
Definition pin (s : BinInt.Z) (n : string) (v : R) : bc_config := {| cstage := s; cg := "states"; cn := n; cv := BSc (Fin v) (Fin v) |}.
Definition time_bcs (dx dy : R) : list bc_config := [pin 0 "x" 0; pin 0 "y" 0; pin 0 "v" 0; pin (-1) "x" dx; pin (-1) "y" dy].
Definition time_bounds : list bound_config :=
  [sbound "global" "mesh_scale" (Fin (1 / 100)) (Fin 10); sbound "inputs" "theta" (Fin (- PI / 2)) (Fin (PI / 2))].
Definition time_config (n : nat) (dx dy : R) (scales : list scale_config) : sim_config :=
  {| cf_n := n; cf_points := None; cf_tname := "Trapezoidal"; cf_tns := None; cf_cyclic := false; cf_noncyclic := []; cf_con := [];
     cf_bounds := time_bounds; cf_bcs := time_bcs dx dy; cf_scales := scales; cf_pen := None |}.

(** base.py:756-778 [_make_custom_model_algebra_cons]: the forward of a batch with the backend "custom" maps [forward] itself, which gets rows of arrays where
    it takes dictionaries; indexing an array with a name is an IndexError *)
Definition named_entry (a : list R) (n : string) : result R := Raise IndexError.
Definition time_forward_rows (args : list (NumpyModel.sarg (list R) unit)) : result NumpyModel.out :=
  match args with
  | [NumpyModel.Elem states; NumpyModel.Elem inputs; _] =>
      bind (named_entry inputs "theta") (fun theta => bind (named_entry states "v") (fun v => Ok (NumpyModel.OTup [[theta; v]])))
  | _ => Raise TypeError
  end.
Definition custom_batched_forward (states inputs : list (list R)) (mesh : list R) : result NumpyModel.mout :=
  NumpyModel.lmap time_forward_rows (NumpyModel.AxAll true) [NumpyModel.Arr states; NumpyModel.Arr inputs; NumpyModel.Arr (map (fun m => [m]) mesh)].
