(** Model of the objectives: scaled_mesh_ocp.py:1044-1052, fixed_mesh_ocp.py:48-72, simulations/laptime_simulation.py:201-271. *)
From Verif Require Import Base RBase TreeModel UtilsModel CollocModel MeshModel OcpModel.

(** scaled_mesh_ocp.py:1044-1046 [_time_objective]: [unflatten_var(x).mesh_scale] *)
Definition time_objective_scaled (o : ocp) (x : list R) : result R :=
  bind (unflatten_var (oc_op o) x) (fun d =>
  match dget "mesh_scale" d with Some f => as_scalar f | None => Raise AttributeError end).
(** scaled_mesh_ocp.py:1048-1051 [_time_gradient]; [get_var_index_in_dec("global", "mesh_scale")] *)
Definition time_gradient_scaled (o : ocp) (x : list R) : result (list R) :=
  bind (index_at (oc_op o) "global" "mesh_scale" 0) (fun i => Ok (upd i 1 (map (fun _ => 0) x))).

(** fixed_mesh_ocp.py:48-57 *)
Definition time_objective_fixed (o : ocp) (x : list R) : result R :=
  bind (index_at (oc_op o) "states" "time" (-1)) (fun e =>
  bind (index_at (oc_op o) "states" "time" 0) (fun s =>
  bind (array_get x e) (fun a => bind (array_get x s) (fun b => Ok (a - b))))).
(** fixed_mesh_ocp.py:59-72 *)
Definition time_gradient_fixed (o : ocp) (x : list R) : result (list R) :=
  bind (index_at (oc_op o) "states" "time" (-1)) (fun e =>
  bind (index_at (oc_op o) "states" "time" 0) (fun s =>
  Ok (upd s (- (1)) (upd e 1 (map (fun _ => 0) x))))).

(** laptime_simulation.py:225-231 [_expand_weights]: one row; the matrix is this row for every stage *)
Definition expand_weights (o : ocp) (weights : dict R) : result (list R) :=
  fold_left (fun acc nw => bind acc (fun v => fmap (fun i => upd i (snd nw) v) (index_in_group (oc_op o) "inputs" (fst nw))))
    weights (Ok (repeat 0 (group_size (oc_op o) "inputs"))).

Definition get_inputs (d : dict (field R)) : result (list (list R)) :=
  match dget "inputs" d with Some f => as_array f | None => Raise AttributeError end.

(** laptime_simulation.py:236-241 [_inputs_penalty] *)
Definition inputs_penalty (o : ocp) (weights : dict R) (x : list R) : result R :=
  bind (expand_weights o weights) (fun w =>
  bind (unflatten_var (oc_op o) x) (fun d =>
  bind (get_inputs d) (fun a =>
  Ok (rsum (map (fun row => rsum (map2 (fun v wi => v ^ 2 * wi) row w)) a) / INR (num_stages (oc_op o)))))).

Definition fzero (f : field R) : field R := match f with FArr a => FArr (map (map (fun v => v * 0)) a) | FSc v => FSc (v * 0) end.
(** laptime_simulation.py:243-251 [_inputs_penalty_grad] *)
Definition inputs_penalty_grad (o : ocp) (weights : dict R) (x : list R) : result (list R) :=
  bind (expand_weights o weights) (fun w =>
  bind (unflatten_var (oc_op o) x) (fun d =>
  bind (get_inputs d) (fun a =>
  let g := map (fun row => map2 (fun v wi => 2 * (v * wi) / INR (num_stages (oc_op o))) row w) a in
  flatten_var (oc_op o) (dset "inputs" (FArr g) (map (fun kv => (fst kv, fzero (snd kv))) d))))).

(** laptime_simulation.py:253-257 [_inputs_penalty_hessian] *)
Definition inputs_penalty_hessian (o : ocp) (weights : dict R) (x : list R) : result (list R) :=
  bind (expand_weights o weights) (fun w =>
  Ok (concat (repeat (map (fun wi => 2 * wi / INR (num_stages (oc_op o))) w) (num_stages (oc_op o))))).
(** laptime_simulation.py:259-271 [_inputs_penalty_hessian_structure] *)
Definition inputs_penalty_hessian_structure (o : ocp) : result (list nat * list nat) :=
  bind (group_indices_at (oc_op o) "inputs" 0) (fun base =>
  create_offset_structure base base (num_var_stage (oc_op o)) (num_var_stage (oc_op o)) (num_stages (oc_op o))).
