(** Model of SimpleVehicle and SimpleVehicleOnTrack at the level of dictionaries and submodel calls: lumos/models/vehicles/simple_vehicle.py and
    lumos/models/simple_vehicle_on_track.py, on top of the arithmetic in VehModel, the kinematics in KinModel and the call protocol in IoModel. *)
From Verif Require Import Base RBase TreeModel UtilsModel IoModel VehModel KinModel BuildModel.

(** simple_vehicle.py:23 *)
Definition cname (c : corner) : string := match c with fl => "fl" | fr => "fr" | rl => "rl" | rr => "rr" end.
Definition at_corner (s : string) (c : corner) : string := String.append s (cname c).
(** simple_vehicle.py:47-95 [state_space_io] *)
Definition veh_states : list string := ["vx"; "vy"; "yaw_rate"; "wheel_speed_fl"; "wheel_speed_fr"; "wheel_speed_rl"; "wheel_speed_rr"].
Definition veh_inputs : list string := ["throttle"; "brake"; "steer"; "ax"; "ay"].
Definition veh_outputs : list string :=
  ["ax"; "ay"; "drive_torque_rl"; "drive_torque_rr"; "Fx_tire_fl"; "Fy_tire_fl"; "Fz_tire_fl"; "Fx_tire_fr"; "Fy_tire_fr"; "Fz_tire_fr"; "Fx_tire_rl"; "Fy_tire_rl"; "Fz_tire_rl"; "Fx_tire_rr"; "Fy_tire_rr"; "Fz_tire_rr";
   "slip_ratio_fl"; "slip_ratio_fr"; "slip_ratio_rl"; "slip_ratio_rr"; "slip_angle_fl"; "slip_angle_fr"; "slip_angle_rl"; "slip_angle_rr"; "res_ax"; "res_ay"].
Definition veh_residuals : list string := ["res_ax"; "res_ay"].
(** tires/pacejka.py:11-21, aero/aero.py:7-9: the inputs of the submodels *)
Definition tire_inputs : list string := ["Fz"; "kappa"; "alpha"; "vx"; "gamma"].
Definition aero_in_names : list string := ["front_ride_height"; "rear_ride_height"; "yaw"].

(** simple_vehicle.py:374-403 [get_default_params]: the entries read in [forward]; aero_balance and some_array are never read; np.deg2rad(10) is pi/18 *)
Definition default_vehicle : vparams :=
  {| max_power := 500000; max_steer_angle := PI / 18; kd := 1047 / 100; rolling_radius := 33 / 100; max_total_brake_torque := 16000; brake_balance := 6 / 10; cog_to_fa := 18 / 10; cog_to_ra := 18 / 10; cog_height := 3 / 10;
     track_front := 146 / 100; track_rear := 146 / 100; gravity := 981 / 100; vehicle_mass := 1800; Iz := 1200; wheel_inertia := 5; air_density := 12 / 10; mech_balance := 5 / 10 |}.

Section Race.
(** the submodels: names of the outputs of a tire and of the aero model, and their [forward], for parameters [P] of the whole model *)
Context {P : Type}.
Variables (tire_out aero_out : list string) (tire_f : P -> corner -> dict R -> result (dict R)) (aero_f : P -> dict R -> result (dict R)) (own : P -> dict R).

Definition stateless (inputs outputs : list string) : mio := MIO {| d_ss := false; d_states := []; d_inputs := inputs; d_outputs := outputs; d_con := []; d_res := [] |} [].
(** simple_vehicle.py:101-108 [get_default_submodel_config]: the submodels and their order *)
Definition veh_mio : mio :=
  MIO {| d_ss := true; d_states := veh_states; d_inputs := veh_inputs; d_outputs := veh_outputs; d_con := []; d_res := veh_residuals |}
    [("tire_fl", stateless tire_inputs tire_out); ("tire_fr", stateless tire_inputs tire_out); ("tire_rl", stateless tire_inputs tire_out); ("tire_rr", stateless tire_inputs tire_out);
     ("aero", stateless aero_in_names aero_out)].
Definition kin_mio : mio := MIO {| d_ss := true; d_states := kin_states; d_inputs := kin_inputs; d_outputs := kin_outputs; d_con := []; d_res := [] |} [].
(** simple_vehicle_on_track.py:10-26 *)
Definition race_mio : mio :=
  MIO {| d_ss := true; d_states := kin_states ++ veh_states; d_inputs := veh_inputs ++ ["track_curvature"; "track_heading"]; d_outputs := []; d_con := []; d_res := [] |}
    [("vehicle", veh_mio); ("kinematics", kin_mio)].
(** what [call_submodel] looks at *)
Fixpoint sm_of (m : mio) : sm := match m with MIO d s => SM (d_ss d) (d_inputs d) (d_states d) (map (fun ns => (fst ns, sm_of (snd ns))) s) end.

(** base.py:204-247: a call that succeeds, or the error; the calls of one [forward] start from a clear buffer (C30) *)
Definition call (m : mio) (b : buffer R) (name : string) (kwargs : dict (dict R)) (outcome : result (dict R)) : result (buffer R * dict R) :=
  match call_submodel (sm_of m) b name (map (fun kv => (fst kv, keys (snd kv))) kwargs) outcome with (b', Ok r) => Ok (b', r) | (_, Raise e) => Raise e end.
(** base.py:397-402 *)
Definition finish (m : mio) (b : buffer R) (kw : dict R) : result (dict R) := snd (make_outputs_dict (sm_of m) (outputs_of m) b kw).

(** simple_vehicle.py:136-152: the parameters, in the order of the code *)
Definition read_params (d : dict R) : result vparams :=
  bind (lookup_err "max_power" d) (fun a1 => bind (lookup_err "max_steer_angle" d) (fun a2 => bind (lookup_err "kd" d) (fun a3 => bind (lookup_err "rolling_radius" d) (fun a4 =>
  bind (lookup_err "max_total_brake_torque" d) (fun a5 => bind (lookup_err "brake_balance" d) (fun a6 => bind (lookup_err "cog_to_fa" d) (fun a7 => bind (lookup_err "cog_to_ra" d) (fun a8 =>
  bind (lookup_err "cog_height" d) (fun a9 => bind (lookup_err "track_front" d) (fun a10 => bind (lookup_err "track_rear" d) (fun a11 => bind (lookup_err "gravity" d) (fun a12 =>
  bind (lookup_err "vehicle_mass" d) (fun a13 => bind (lookup_err "Iz" d) (fun a14 => bind (lookup_err "wheel_inertia" d) (fun a15 => bind (lookup_err "air_density" d) (fun a16 =>
  bind (lookup_err "mech_balance" d) (fun a17 =>
  Ok {| max_power := a1; max_steer_angle := a2; kd := a3; rolling_radius := a4; max_total_brake_torque := a5; brake_balance := a6; cog_to_fa := a7; cog_to_ra := a8; cog_height := a9;
        track_front := a10; track_rear := a11; gravity := a12; vehicle_mass := a13; Iz := a14; wheel_inertia := a15; air_density := a16; mech_balance := a17 |}))))))))))))))))).
(** simple_vehicle.py:124-134 *)
Definition read_inputs (inputs : dict R) : result vinputs :=
  bind (lookup_err "throttle" inputs) (fun a1 => bind (lookup_err "brake" inputs) (fun a2 => bind (lookup_err "steer" inputs) (fun a3 => bind (lookup_err "ax" inputs) (fun a4 =>
  bind (lookup_err "ay" inputs) (fun a5 => Ok {| throttle := a1; brake := a2; steer := a3; ax_in := a4; ay_in := a5 |}))))).
Definition read_states (states : dict R) : result vstates :=
  bind (lookup_err "vx" states) (fun a1 => bind (lookup_err "vy" states) (fun a2 => bind (lookup_err "yaw_rate" states) (fun a3 =>
  bind (lookup_err "wheel_speed_fl" states) (fun w1 => bind (lookup_err "wheel_speed_fr" states) (fun w2 => bind (lookup_err "wheel_speed_rl" states) (fun w3 => bind (lookup_err "wheel_speed_rr" states) (fun w4 =>
  Ok {| vx := a1; vy := a2; yaw_rate := a3; wheel_speed := fun c => match c with fl => w1 | fr => w2 | rl => w3 | rr => w4 end |}))))))).

(** simple_vehicle.py:275-297: one turn of the loop over the corners; [cz] is the aero coefficient the load depends on *)
Definition call_tire (q : P) (v : vparams) (cz : R) (s : vstates) (u : vinputs) (b : buffer R) (c : corner) : result (buffer R * (R * R)) :=
  let vel := f_vel_wheel v s u c in
  let inputs := [("Fz", f_wheel_load v (fun _ _ _ => (0, cz)) s u c); ("kappa", f_kappa v s c); ("alpha", f_alpha v s u c * mirror c); ("vx", X vel); ("gamma", 0 * mirror c)] in
  bind (call veh_mio b (at_corner "tire_" c) [("inputs", inputs)] (tire_f q c inputs)) (fun br =>
  bind (lookup_err "Fx" (snd br)) (fun Fx => bind (lookup_err "Fy" (snd br)) (fun Fy => Ok (fst br, (Fx, Fy))))).
(** simple_vehicle.py:110-372 [SimpleVehicle.forward]: (states_dot, outputs) *)
Definition veh_forward (q : P) (states inputs : dict R) : result (dict R * dict R) :=
  bind (read_inputs inputs) (fun u =>
  bind (read_states states) (fun s =>
  bind (read_params (own q)) (fun v =>
  let aero_inputs := [("front_ride_height", vx s); ("rear_ride_height", vy s); ("yaw", yaw_rate s)] in
  bind (call veh_mio (clear_buffer (sm_of veh_mio)) "aero" [("inputs", aero_inputs)] (aero_f q aero_inputs)) (fun br =>
  bind (lookup_err "Cz" (snd br)) (fun cz =>
  bind (call_tire q v cz s u (fst br) fl) (fun t1 =>
  bind (call_tire q v cz s u (fst t1) fr) (fun t2 =>
  bind (call_tire q v cz s u (fst t2) rl) (fun t3 =>
  bind (call_tire q v cz s u (fst t3) rr) (fun t4 =>
  bind (lookup_err "Cx" (snd br)) (fun cx =>
  let force c := match c with fl => snd t1 | fr => snd t2 | rl => snd t3 | rr => snd t4 end in
  let r := vehicle_forward v (fun _ _ _ => (cx, cz)) (fun c _ _ _ _ _ => force c) s u in
  bind (make_dict veh_states [("vx", d_vx r); ("vy", d_vy r); ("yaw_rate", d_yaw_rate r); ("wheel_speed_fl", d_wheel_speed r fl); ("wheel_speed_fr", d_wheel_speed r fr);
    ("wheel_speed_rl", d_wheel_speed r rl); ("wheel_speed_rr", d_wheel_speed r rr)]) (fun states_dot =>
  bind (finish veh_mio (fst t4)
    [("ax", o_ax r); ("ay", o_ay r); ("drive_torque_rl", o_drive_torque_rl r); ("drive_torque_rr", o_drive_torque_rr r);
     ("Fx_tire_fl", X (o_F r fl)); ("Fy_tire_fl", Y (o_F r fl)); ("Fz_tire_fl", Z (o_F r fl)); ("Fx_tire_fr", X (o_F r fr)); ("Fy_tire_fr", Y (o_F r fr)); ("Fz_tire_fr", Z (o_F r fr));
     ("Fx_tire_rl", X (o_F r rl)); ("Fy_tire_rl", Y (o_F r rl)); ("Fz_tire_rl", Z (o_F r rl)); ("Fx_tire_rr", X (o_F r rr)); ("Fy_tire_rr", Y (o_F r rr)); ("Fz_tire_rr", Z (o_F r rr));
     ("res_ax", o_res_ax r); ("res_ay", o_res_ay r);
     ("slip_ratio_fl", o_slip_ratio r fl); ("slip_angle_fl", o_slip_angle r fl); ("slip_ratio_fr", o_slip_ratio r fr); ("slip_angle_fr", o_slip_angle r fr);
     ("slip_ratio_rl", o_slip_ratio r rl); ("slip_angle_rl", o_slip_angle r rl); ("slip_ratio_rr", o_slip_ratio r rr); ("slip_angle_rr", o_slip_angle r rr)]) (fun outputs =>
  Ok (states_dot, outputs))))))))))))).

(** simple_vehicle_on_track.py:28-76 [SimpleVehicleOnTrack.forward] *)
Definition race_forward (q : P) (states inputs : dict R) : result (dict R * dict R) :=
  bind (pick veh_inputs inputs) (fun vehicle_inputs =>
  bind (pick veh_states states) (fun vehicle_states =>
  let vr := veh_forward q vehicle_states vehicle_inputs in
  bind (call race_mio (clear_buffer (sm_of race_mio)) "vehicle" [("states", vehicle_states); ("inputs", vehicle_inputs)] (fmap snd vr)) (fun br =>
  bind (pick kin_states states) (fun kinematic_states =>
  bind (pick ["vx"; "vy"; "yaw_rate"] vehicle_states) (fun inputs_from_vehicle =>
  bind (pick ["track_curvature"; "track_heading"] inputs) (fun track_inputs =>
  let kinematic_inputs := track_inputs ++ inputs_from_vehicle in
  let kr := kin_forward kinematic_states kinematic_inputs in
  bind (call race_mio (fst br) "kinematics" [("states", kinematic_states); ("inputs", kinematic_inputs)] (fmap snd kr)) (fun br2 =>
  bind vr (fun vr => bind kr (fun kr =>
  bind (lookup_err "time" (fst kr)) (fun dt_ds =>
  bind (finish race_mio (fst br2) []) (fun outputs =>
  Ok (dupdate (fst kr) (map (fun kv => (fst kv, snd kv * dt_ds)) (fst vr)), outputs)))))))))))).

(** the model as the problem sees it; derivatives come from jax or casadi and stay abstract *)
Definition race_model (jac : list string -> list R -> R -> P -> list R) (hess : list string -> list R -> list R -> R -> P -> list R) (js hs : list string -> list nat * list nat) : smodel P := {|
  m_states := kin_states ++ veh_states; m_inputs := veh_inputs ++ ["track_curvature"; "track_heading"]; m_outputs := outputs_of race_mio; m_residuals := residuals_of race_mio;
  m_forward := fun q ds di _ => race_forward q ds di; m_jac := jac; m_hess := hess; m_js := js; m_hs := hs |}.
End Race.
