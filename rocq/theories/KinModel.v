(** Model of lumos/models/kinematics.py and lumos/models/simple_vehicle_on_track.py.  Numbers are reals; dictionaries keep their order. *)
From Verif Require Import Base RBase IoModel.
From Coq Require Export Rtrigo1.

(** kinematics.py:10-14 *)
Definition kin_states : list string := ["time"; "n"; "eta"].
Definition kin_inputs : list string := ["vx"; "vy"; "yaw_rate"; "track_curvature"; "track_heading"].
Definition kin_outputs : list string := ["yaw_angle"; "curvature"].

(** kinematics.py:31-59 [TrackPosition2D.forward]: (states_dot, outputs).  A division by zero (a ZeroDivisionError or inf in Python) is not modelled:
    the theorems ask for nonzero denominators. *)
Definition kin_forward (states inputs : dict R) : result (dict R * dict R) :=
  bind (lookup_err "n" states) (fun n =>
  bind (lookup_err "eta" states) (fun eta =>
  bind (lookup_err "vx" inputs) (fun vx =>
  bind (lookup_err "vy" inputs) (fun vy =>
  bind (lookup_err "yaw_rate" inputs) (fun yaw_rate =>
  bind (lookup_err "track_curvature" inputs) (fun curvature =>
  bind (lookup_err "track_heading" inputs) (fun track_heading =>
  let yaw_angle := eta + track_heading in
  let ds_dt := (vx * cos eta - vy * sin eta) / (1 - n * curvature) in
  let dn_dt := vx * sin eta + vy * cos eta in
  let deta_dt := yaw_rate - curvature * ds_dt in
  bind (make_dict kin_states [("time", 1 / ds_dt); ("n", dn_dt / ds_dt); ("eta", deta_dt / ds_dt)]) (fun states_dot =>
  bind (make_dict kin_outputs [("yaw_angle", yaw_angle); ("curvature", curvature)]) (fun outputs =>
  Ok (states_dot, outputs)))))))))).

(** {k: d[k] for k in names} *)
Definition pick (names : list string) (d : dict R) : result (dict R) := fmap (@dict_of_list R) (mapM (fun k => fmap (pair k) (lookup_err k d)) names).

(** simple_vehicle_on_track.py:10-15: the vehicle is a submodel with its own names and an arbitrary [forward] giving its states_dot *)
Section OnTrack.
Variables (veh_states veh_inputs : list string) (veh_forward : dict R -> dict R -> result (dict R)).
Definition ot_states : list string := kin_states ++ veh_states.
Definition ot_inputs : list string := veh_inputs ++ ["track_curvature"; "track_heading"].
(** simple_vehicle_on_track.py:28-76 [forward], without the name checks and the output buffer of [call_submodel] (IoModel); [dict( **a, **b)] with the
    disjoint names used here is the concatenation *)
Definition ot_forward (states inputs : dict R) : result (dict R) :=
  bind (pick veh_inputs inputs) (fun vehicle_inputs =>
  bind (pick veh_states states) (fun vehicle_states =>
  bind (veh_forward vehicle_states vehicle_inputs) (fun vehicle_dot =>
  bind (pick kin_states states) (fun kinematic_states =>
  bind (pick ["vx"; "vy"; "yaw_rate"] vehicle_states) (fun inputs_from_vehicle =>
  bind (pick ["track_curvature"; "track_heading"] inputs) (fun track_inputs =>
  bind (kin_forward kinematic_states (track_inputs ++ inputs_from_vehicle)) (fun kr =>
  bind (lookup_err "time" (fst kr)) (fun dt_ds =>
  Ok (dupdate (fst kr) (map (fun kv => (fst kv, snd kv * dt_ds)) vehicle_dot)))))))))).
End OnTrack.
