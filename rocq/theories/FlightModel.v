(** Model of lumos/simulations/drone_simulation.py on top of the model of ScaledMeshOCP (BuildModel) and of the drone (DroneModel).  The problem is not condensed. *)
From Verif Require Import Base RBase TreeModel UtilsModel IoModel CollocModel MeshModel OcpModel NlpModel AlgModel BoundModel ScaleModel ObjModel BuildModel DroneModel LapModel.

(** drone_simulation.py:17-29 [get_default_boundary_conditions] *)
Definition at_stage (s : Z) (n : string) (v : R) : bc_config := {| cstage := s; cg := "states"; cn := n; cv := BSc (Fin v) (Fin v) |}.
Definition drone_bcs : list bc_config :=
  [at_stage 0 "x" 0; at_stage 0 "x_dot" 0; at_stage 0 "z" 0; at_stage 0 "z_dot" 0; at_stage 0 "theta" 0;
   at_stage (-1) "x" 0; at_stage (-1) "x_dot" 0; at_stage (-1) "z" 5; at_stage (-1) "z_dot" 0; at_stage (-1) "theta" (2 * PI)].
(** drone_simulation.py:32-42 [get_default_bounds] *)
Definition drone_bounds : list bound_config :=
  [sbound "states" "x" (Fin (-50)) (Fin 50); sbound "states" "x_dot" (Fin (-50)) (Fin 50); sbound "states" "z" (Fin (-50)) (Fin 50); sbound "states" "z_dot" (Fin (-50)) (Fin 50);
   sbound "states" "theta" (Fin (-10 * PI)) (Fin (10 * PI)); sbound "inputs" "f" (Fin 1) (Fin 20); sbound "inputs" "omega" (Fin (-10)) (Fin 10); sbound "global" "mesh_scale" (Fin (1 / 10)) (Fin 50)].
(** drone_simulation.py:46-51 [DroneSimulationConfig]; config.py:124-136: the defaults of SimConfig *)
Definition make_drone_config (n : option nat) (points : option (list R)) (transcription : option (string * option nat)) (is_cyclic : option bool) (non_cyclic : option (list string))
    (con : option (list string)) (bounds : option (list bound_config)) (bcs : option (list bc_config)) (scales : option (list scale_config)) : sim_config :=
  let t := or_default transcription ("Trapezoidal", None) in
  {| cf_n := or_default n 99%nat; cf_points := points; cf_tname := fst t; cf_tns := snd t; cf_cyclic := or_default is_cyclic false; cf_noncyclic := or_default non_cyclic [];
     cf_con := or_default con ["sin_theta"]; cf_bounds := or_default bounds drone_bounds; cf_bcs := or_default bcs drone_bcs; cf_scales := or_default scales []; cf_pen := None |}.

(** drone_model.py:11-52 as a model of the problem: the parameter is the gravity; the derivatives come from jax or casadi and stay abstract *)
Definition drone_model (jac : list string -> list R -> R -> R -> list R) (hess : list string -> list R -> list R -> R -> R -> list R) (js hs : list string -> list nat * list nat) : smodel R := {|
  m_states := drone_states; m_inputs := drone_inputs; m_outputs := drone_outputs; m_residuals := [];
  m_forward := fun g ds di _ => drone_forward [("gravity", g)] ds di;
  m_jac := jac; m_hess := hess; m_js := js; m_hs := hs |}.
(** drone_simulation.py:57-67 [__init__] *)
Definition drone_construct (roots : list R -> list R) (M : smodel R) (cfg : sim_config) (g : R) : result (attrs R) := construct roots M cfg None g.

(** drone_simulation.py:69-92 [get_init_guess]; base.py:353-356 [make_const_vector]; adding arrays of another size is a ValueError (broadcasting of one input is not modelled) *)
Definition drone_init_guess (M : smodel R) (a : attrs R) : result (list R) :=
  let o := a_o a in let op := oc_op o in
  let t_guess := 1 in
  bind (if Nat.eqb (List.length (m_inputs M)) 2 then Ok (repeat (map2 Rplus (repeat 0 (List.length (m_inputs M))) [10; 0]) (num_stages op)) else Raise ValueError) (fun inputs =>
  let states := map (map (fun v => v + 1 / 10)) (repeat (map (fun v => v * 0) (repeat 1 (List.length (m_states M)))) (num_stages op)) in
  bind (mesh_from_scale (oc_mesh o) t_guess) (fun mesh =>
  bind (rows_forward (forward_with_arrays (names_of M (a_con a)) (m_forward M (a_p a))) states inputs mesh) (fun ret =>
  flatten_var op [("states", FArr states); ("inputs", FArr inputs); ("states_dot", FArr (map fst ret)); ("con_outputs", FArr (map snd ret)); ("mesh_scale", FSc t_guess)]))).
(** drone_simulation.py:94-95 [get_total_time] *)
Definition get_total_time (a : attrs R) (x : list R) : result R := time_objective_scaled (a_o a) x.
