(** Model of lumos/models/vehicles/simple_vehicle.py: the four-wheel vehicle.  Numbers are reals; the aero and tire submodels are arbitrary functions. *)
From Verif Require Import Base RBase.
From Coq Require Export Ratan Rtrigo1.

(** simple_vehicle.py:23 [_corners] *)
Inductive corner := fl | fr | rl | rr.
Definition v3 : Type := (R * R * R)%type.
Definition X (v : v3) : R := fst (fst v).
Definition Y (v : v3) : R := snd (fst v).
Definition Z (v : v3) : R := snd v.
Definition vplus (a b : v3) : v3 := (X a + X b, Y a + Y b, Z a + Z b).
Definition vscale (k : R) (a : v3) : v3 := (X a / k, Y a / k, Z a / k).
(** lnp.cross *)
Definition cross (a b : v3) : v3 := (Y a * Z b - Z a * Y b, Z a * X b - X a * Z b, X a * Y b - Y a * X b).
(** simple_vehicle.py:26-41 [_rotate_z], applied to a vector with @ *)
Definition rotate_z (theta : R) (v : v3) : v3 := (cos theta * X v + sin theta * Y v + 0 * Z v, - sin theta * X v + cos theta * Y v + 0 * Z v, 0 * X v + 0 * Y v + 1 * Z v).

(** the parameters read in [forward] (simple_vehicle.py:136-152); aero_balance and some_array are never read *)
Record vparams := { max_power : R; max_steer_angle : R; kd : R; rolling_radius : R; max_total_brake_torque : R; brake_balance : R; cog_to_fa : R; cog_to_ra : R; cog_height : R;
  track_front : R; track_rear : R; gravity : R; vehicle_mass : R; Iz : R; wheel_inertia : R; air_density : R; mech_balance : R }.
(** states and inputs (simple_vehicle.py:48-64) *)
Record vstates := { vx : R; vy : R; yaw_rate : R; wheel_speed : corner -> R }.
Record vinputs := { throttle : R; brake : R; steer : R; ax_in : R; ay_in : R }.
(** the submodels: [aero] maps (front_ride_height, rear_ride_height, yaw) to (Cx, Cz); a tire maps (Fz, kappa, alpha, vx, gamma) to (Fx, Fy) *)
Definition aero_model : Type := R -> R -> R -> R * R.
Definition tire_model : Type := R -> R -> R -> R -> R -> R * R.
(** what [forward] returns (simple_vehicle.py:336-372) *)
Record vreturn := { d_vx : R; d_vy : R; d_yaw_rate : R; d_wheel_speed : corner -> R;
  o_ax : R; o_ay : R; o_drive_torque_rl : R; o_drive_torque_rr : R; o_F : corner -> v3; o_slip_ratio : corner -> R; o_slip_angle : corner -> R; o_res_ax : R; o_res_ay : R }.

Section Forward.
Variables (p : vparams) (aero : aero_model) (tire : corner -> tire_model) (s : vstates) (u : vinputs).
(** 155 *)
Definition f_steer : R := steer u * max_steer_angle p.
(** 156-181 drive torques *)
Definition f_drive_power : R := throttle u * max_power p.
Definition f_delta_torque : R := - kd p * (wheel_speed s rl - wheel_speed s rr).
Definition f_drive_rl : R := (f_drive_power + f_delta_torque * wheel_speed s rr) / (wheel_speed s rl + wheel_speed s rr).
Definition f_drive_torque (c : corner) : R := match c with fl | fr => 0 | rl => f_drive_rl | rr => f_drive_rl - f_delta_torque end.
(** 184-192 brake torques *)
Definition f_total_brake : R := max_total_brake_torque p * brake u.
Definition f_brake_torque (c : corner) : R := match c with fl | fr => f_total_brake * brake_balance p * (1 / 2) | rl | rr => f_total_brake * (1 - brake_balance p) * (1 / 2) end.
(** 195-203 vertical load; the aero inputs are the speeds *)
Definition f_aero : R * R := aero (vx s) (vy s) (yaw_rate s).
Definition f_Fz_total : R := vehicle_mass p * gravity p + snd f_aero * (1 / 2 * air_density p * (vx s ^ 2 + vy s ^ 2)).
(** 210-237 wheel loads *)
Definition f_roll_moment : R := - ay_in u * vehicle_mass p * cog_height p.
Definition f_lat_front : R := f_roll_moment * mech_balance p / track_front p.
Definition f_lat_rear : R := f_roll_moment * (1 - mech_balance p) / track_rear p.
Definition f_pitch_moment : R := - ax_in u * vehicle_mass p * cog_height p.
Definition f_long : R := f_pitch_moment / (cog_to_fa p + cog_to_ra p) / 2.
Definition f_wdf : R := cog_to_ra p / (cog_to_fa p + cog_to_ra p).
Definition f_wheel_load (c : corner) : R :=
  match c with
  | fl => 1 / 2 * f_wdf * f_Fz_total + f_lat_front + f_long
  | fr => 1 / 2 * f_wdf * f_Fz_total - f_lat_front + f_long
  | rl => 1 / 2 * (1 - f_wdf) * f_Fz_total + f_lat_rear - f_long
  | rr => 1 / 2 * (1 - f_wdf) * f_Fz_total - f_lat_rear - f_long
  end.
(** 246-264 contact patch velocities *)
Definition f_pos (c : corner) : v3 :=
  match c with
  | fl => (cog_to_fa p, track_front p / 2, - cog_height p)
  | fr => (cog_to_fa p, - track_front p / 2, - cog_height p)
  | rl => (- cog_to_ra p, track_rear p / 2, - cog_height p)
  | rr => (- cog_to_ra p, - track_rear p / 2, - cog_height p)
  end.
Definition f_vel_body (c : corner) : v3 := vplus (vx s, vy s, 0) (cross (0, 0, yaw_rate s) (f_pos c)).
Definition f_wheel_angle (c : corner) : R := match c with fl | fr => f_steer | rl | rr => 0 end.
Definition f_vel_wheel (c : corner) : v3 := rotate_z (f_wheel_angle c) (f_vel_body c).
(** 270-297 slips and tire forces *)
Definition mirror (c : corner) : R := match c with fl | rl => 1 | fr | rr => -1 end.
Definition f_kappa (c : corner) : R := - (1 - rolling_radius p * wheel_speed s c / vx s).
Definition f_alpha (c : corner) : R := atan (Y (f_vel_wheel c) / X (f_vel_wheel c)).
Definition f_tire (c : corner) : R * R := tire c (f_wheel_load c) (f_kappa c) (f_alpha c * mirror c) (X (f_vel_wheel c)) (0 * mirror c).
Definition f_force_wheel (c : corner) : v3 := (fst (f_tire c), snd (f_tire c) * mirror c, f_wheel_load c).
(** 300-309 *)
Definition f_force_body (c : corner) : v3 := rotate_z (- f_wheel_angle c) (f_force_wheel c).
Definition f_moment_body (c : corner) : v3 := cross (f_pos c) (f_force_body c).
(** 313-334 *)
Definition f_drag : v3 := (- fst f_aero * (1 / 2 * air_density p * (vx s ^ 2 + vy s ^ 2)), 0, 0).
Definition sum4 (f : corner -> v3) : v3 := vplus (vplus (vplus (f fl) (f fr)) (f rl)) (f rr).
Definition f_total_force : v3 := vplus (sum4 f_force_body) f_drag.
Definition f_total_moment : v3 := sum4 f_moment_body.
Definition f_ax : R := X (vscale (vehicle_mass p) f_total_force).
Definition f_ay : R := Y (vscale (vehicle_mass p) f_total_force).
Definition f_yaw_accel : R := Z f_total_moment / Iz p.
Definition f_wheel_speed_dot (c : corner) : R := (f_drive_torque c - f_brake_torque c - X (f_force_wheel c) * rolling_radius p) / wheel_inertia p.
(** simple_vehicle.py:110-372 [SimpleVehicle.forward] *)
Definition vehicle_forward : vreturn :=
  {| d_vx := f_ax + yaw_rate s * vy s; d_vy := f_ay - yaw_rate s * vx s; d_yaw_rate := f_yaw_accel; d_wheel_speed := f_wheel_speed_dot;
     o_ax := f_ax; o_ay := f_ay; o_drive_torque_rl := f_drive_torque rl; o_drive_torque_rr := f_drive_torque rr; o_F := f_force_body;
     o_slip_ratio := f_kappa; o_slip_angle := f_alpha; o_res_ax := f_ax - ax_in u; o_res_ay := f_ay - ay_in u |}.
End Forward.
