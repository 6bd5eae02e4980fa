(** The vehicle models once more, with every division and square root checked: a step that real arithmetic does not define (a float division by zero gives inf or
    nan in numpy, jax and casadi) makes the whole result [None].  Nothing else differs from VehModel, TireModel and KinModel. *)
From Verif Require Import Base RBase VehModel TireModel PacModel.

(** lnp.sqrt of a negative number is nan *)
Definition osqrt (a : R) : option R := if Rlt_dec a 0 then None else Some (sqrt a).
(** perantoni.py:46-97 [PerantoniTire.forward]; the inputs vx and gamma are not used *)
Definition ck_perantoni (p : tparams) (Fz kappa alpha vx gamma : R) : option tforce :=
  let? interp_val := odiv (Fz - Fz1 p) (Fz2 p - Fz1 p) in
  let mux_max := interp_val * (mux2 p - mux1 p) + mux1 p in
  let muy_max := interp_val * (muy2 p - muy1 p) + muy1 p in
  let kappa_max := interp_val * (kappa2 p - kappa1 p) + kappa1 p in
  let alpha_max := interp_val * (alpha2 p - alpha1 p) + alpha1 p in
  let? kappa_n := odiv kappa kappa_max in
  let? alpha_n := odiv alpha alpha_max in
  let? r := osqrt (alpha_n ^ 2 + kappa_n ^ 2 + jitter) in
  let? Sx := odiv (PI / 2) (atan (Qx p)) in
  let? Sy := odiv (PI / 2) (atan (Qy p)) in
  let mux := mux_max * sin (Qx p * atan (Sx * r)) in
  let muy := muy_max * sin (Qy p * atan (Sy * r)) in
  let? fx := odiv (mux * Fz * kappa_n) r in
  let? fy := odiv (- muy * Fz * alpha_n) r in
  Some {| Fx := fx; Fy := fy; Mx := 0; My := 0; Mz := 0 |}.

(** simple_vehicle.py:110-372 [SimpleVehicle.forward]; the submodels may be undefined too *)
Section Veh.
Variables (p : vparams) (aero : R -> R -> R -> option (R * R)) (tire : corner -> R -> R -> R -> R -> R -> option (R * R)) (s : vstates) (u : vinputs).
(** 275-297, one corner: slip ratio, slip angle and force in wheel coordinates *)
Definition ck_corner (wheel_load : corner -> R) (c : corner) : option (R * R * v3) :=
  let? ratio := odiv (rolling_radius p * wheel_speed s c) (vx s) in
  let kappa := - (1 - ratio) in
  let vel := f_vel_wheel p s u c in
  let? q := odiv (Y vel) (X vel) in
  let alpha := atan q in
  let? f := tire c (wheel_load c) kappa (alpha * mirror c) (X vel) (0 * mirror c) in
  Some (kappa, alpha, (fst f, snd f * mirror c, wheel_load c)).
Definition by_corner {A} (a b c d : A) (k : corner) : A := match k with fl => a | fr => b | rl => c | rr => d end.
(** 110-372 *)
Definition ck_vehicle : option vreturn :=
  let steer := steer u * max_steer_angle p in
  let drive_power := throttle u * max_power p in
  let delta_torque := - kd p * (wheel_speed s rl - wheel_speed s rr) in
  let? drive_rl := odiv (drive_power + delta_torque * wheel_speed s rr) (wheel_speed s rl + wheel_speed s rr) in
  let drive_rr := drive_rl - delta_torque in
  let drive_torque := by_corner 0 0 drive_rl drive_rr in
  let total_brake := max_total_brake_torque p * brake u in
  let front_brake := total_brake * brake_balance p * (1 / 2) in
  let rear_brake := total_brake * (1 - brake_balance p) * (1 / 2) in
  let brake_torque := by_corner front_brake front_brake rear_brake rear_brake in
  let? coeff := aero (vx s) (vy s) (yaw_rate s) in
  let dynamic := 1 / 2 * air_density p * (vx s ^ 2 + vy s ^ 2) in
  let Fz_total := vehicle_mass p * gravity p + snd coeff * dynamic in
  let roll_moment := - ay_in u * vehicle_mass p * cog_height p in
  let? lat_front := odiv (roll_moment * mech_balance p) (track_front p) in
  let? lat_rear := odiv (roll_moment * (1 - mech_balance p)) (track_rear p) in
  let pitch_moment := - ax_in u * vehicle_mass p * cog_height p in
  let? pm := odiv pitch_moment (cog_to_fa p + cog_to_ra p) in
  let? long := odiv pm 2 in
  let? wdf := odiv (cog_to_ra p) (cog_to_fa p + cog_to_ra p) in
  let wheel_load := by_corner (1 / 2 * wdf * Fz_total + lat_front + long) (1 / 2 * wdf * Fz_total - lat_front + long)
                              (1 / 2 * (1 - wdf) * Fz_total + lat_rear - long) (1 / 2 * (1 - wdf) * Fz_total - lat_rear - long) in
  let? kfl := ck_corner wheel_load fl in
  let? kfr := ck_corner wheel_load fr in
  let? krl := ck_corner wheel_load rl in
  let? krr := ck_corner wheel_load rr in
  let of_corner := by_corner kfl kfr krl krr in
  let wheel_force c := snd (of_corner c) in
  let body_force c := rotate_z (- by_corner steer steer 0 0 c) (wheel_force c) in
  let moment c := cross (f_pos p c) (body_force c) in
  let drag : v3 := (- fst coeff * dynamic, 0, 0) in
  let force := vplus (sum4 body_force) drag in
  let? ax := odiv (X force) (vehicle_mass p) in
  let? ay := odiv (Y force) (vehicle_mass p) in
  let? yaw_accel := odiv (Z (sum4 moment)) (Iz p) in
  let torque c := drive_torque c - brake_torque c - X (wheel_force c) * rolling_radius p in
  let? wfl := odiv (torque fl) (wheel_inertia p) in
  let? wfr := odiv (torque fr) (wheel_inertia p) in
  let? wrl := odiv (torque rl) (wheel_inertia p) in
  let? wrr := odiv (torque rr) (wheel_inertia p) in
  Some {| d_vx := ax + yaw_rate s * vy s; d_vy := ay - yaw_rate s * vx s; d_yaw_rate := yaw_accel; d_wheel_speed := by_corner wfl wfr wrl wrr;
          o_ax := ax; o_ay := ay; o_drive_torque_rl := drive_rl; o_drive_torque_rr := drive_rr; o_F := body_force;
          o_slip_ratio := fun c => fst (fst (of_corner c)); o_slip_angle := fun c => snd (fst (of_corner c)); o_res_ax := ax - ax_in u; o_res_ay := ay - ay_in u |}.
End Veh.

(** kinematics.py:31-59 [TrackPosition2D.forward]: the derivatives of time, offset and heading error over the distance *)
Definition ck_kinematics (n eta vx vy yaw_rate curvature : R) : option (R * R * R) :=
  let? ds_dt := odiv (vx * cos eta - vy * sin eta) (1 - n * curvature) in
  let dn_dt := vx * sin eta + vy * cos eta in
  let deta_dt := yaw_rate - curvature * ds_dt in
  let? t := odiv 1 ds_dt in
  let? dn := odiv dn_dt ds_dt in
  let? de := odiv deta_dt ds_dt in
  Some (t, dn, de).
(** simple_vehicle_on_track.py:28-76 [SimpleVehicleOnTrack.forward]: all derivatives over the distance, in the order of the states *)
Definition ck_on_track (p : vparams) (aero : R -> R -> R -> option (R * R)) (tire : corner -> R -> R -> R -> R -> R -> option (R * R)) (s : vstates) (u : vinputs) (n eta curvature : R) : option (list R) :=
  let? r := ck_vehicle p aero tire s u in
  let? k := ck_kinematics n eta (vx s) (vy s) (yaw_rate s) curvature in
  let dt_ds := fst (fst k) in
  Some ([dt_ds; snd (fst k); snd k] ++ map (fun v => v * dt_ds) [d_vx r; d_vy r; d_yaw_rate r; d_wheel_speed r fl; d_wheel_speed r fr; d_wheel_speed r rl; d_wheel_speed r rr]).

(** ** Submodels *)
(** aero.py:20-25 [ConstAero]: the default coefficients *)
Definition ck_const_aero (Cx Cz : R) : R -> R -> R -> option (R * R) := fun _ _ _ => Some (Cx, Cz).
(** simple_vehicle.py:283-295: what the vehicle reads from Perantoni's tire and from MF52 (pacejka.py:221-270) *)
Definition ck_perantoni_tire (t : tparams) : corner -> R -> R -> R -> R -> R -> option (R * R) :=
  fun _ Fz kappa alpha v gamma => let? f := ck_perantoni t Fz kappa alpha v gamma in Some (Fx f, Fy f).
Definition ck_mf_tire (opt_mode : bool) (params : dict R) : corner -> R -> R -> R -> R -> R -> option (R * R) :=
  fun _ Fz kappa alpha v gamma =>
  match mf_forward opt_mode params [("Fz", Fz); ("kappa", kappa); ("alpha", alpha); ("vx", v); ("gamma", gamma)] with
  | Ok out => let? fx := (let? x := dget "Fx" out in x) in let? fy := (let? y := dget "Fy" out in y) in Some (fx, fy)
  | Raise _ => None
  end.
