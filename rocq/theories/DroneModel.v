(** Model of lumos/models/drone_model.py.  Numbers are reals. *)
From Verif Require Import Base RBase IoModel.
From Coq Require Export Rtrigo1.

(** drone_model.py:11-15 *)
Definition drone_states : list string := ["x"; "x_dot"; "z"; "z_dot"; "theta"].
Definition drone_inputs : list string := ["f"; "omega"].
Definition drone_outputs : list string := ["sin_theta"; "f_omega"].
(** drone_model.py:22-48 [DroneModel.forward]: (states_dot, outputs); dictionary lookups in the order of the code *)
Definition drone_forward (params states inputs : dict R) : result (dict R * dict R) :=
  bind (lookup_err "theta" states) (fun theta =>
  bind (lookup_err "f" inputs) (fun f =>
  let x_dot_dot := f * sin theta in
  bind (lookup_err "gravity" params) (fun gravity =>
  let z_dot_dot := f * cos theta - gravity in
  bind (lookup_err "x_dot" states) (fun x_dot =>
  bind (lookup_err "z_dot" states) (fun z_dot =>
  bind (lookup_err "omega" inputs) (fun omega =>
  bind (make_dict drone_states [("x", x_dot); ("x_dot", x_dot_dot); ("z", z_dot); ("z_dot", z_dot_dot); ("theta", omega)]) (fun states_dot =>
  bind (make_dict drone_outputs [("sin_theta", sin theta); ("f_omega", omega * f)]) (fun outputs =>
  Ok (states_dot, outputs))))))))).
(** drone_model.py:50-52 *)
Definition drone_default_params : dict R := [("gravity", 981 / 100)].
