(** Where the equations of the car make sense: every quantity that is divided by, in terms of the car, the road and the driver. *)
From Verif Require Import Base RBase VehModel VehSpec TireModel BoundModel OcpModel UtilsModel.

(** vertical load on a wheel: its share of the weight and the lift, what cornering moves across each axle, and what accelerating moves from the front to the rear axle *)
Definition static_load (p : vparams) (lift : R) (u : vinputs) (c : corner) : R :=
  let total := vehicle_mass p * gravity p + lift in let wheelbase := cog_to_fa p + cog_to_ra p in
  let moved_back := vehicle_mass p * cog_height p * ax_in u / wheelbase in let roll := vehicle_mass p * cog_height p * ay_in u in
  match c with
  | fl => total * cog_to_ra p / wheelbase / 2 - moved_back / 2 - roll * mech_balance p / track_front p
  | fr => total * cog_to_ra p / wheelbase / 2 - moved_back / 2 + roll * mech_balance p / track_front p
  | rl => total * cog_to_fa p / wheelbase / 2 + moved_back / 2 - roll * (1 - mech_balance p) / track_rear p
  | rr => total * cog_to_fa p / wheelbase / 2 + moved_back / 2 + roll * (1 - mech_balance p) / track_rear p
  end.
(** speed of a contact patch along its wheel *)
Definition patch_speed (p : vparams) (s : vstates) (u : vinputs) (c : corner) : R := along (wheel_angle p u c) (point_vx p s c) (point_vy p s c).
(** the arguments with which the code calls the tire at a corner, given the lift of the aero model *)
Definition tire_arguments (p : vparams) (lift : R) (s : vstates) (u : vinputs) (c : corner) (f : R -> R -> R -> R -> R -> Prop) : Prop :=
  let side := match c with fl | rl => 1 | fr | rr => -1 end in
  f (static_load p lift u c) (rolling_radius p * wheel_speed s c / vx s - 1)
    (atan (across (wheel_angle p u c) (point_vx p s c) (point_vy p s c) / patch_speed p s u c) * side) (patch_speed p s u c) 0.
(** the car has a wheelbase, tracks, mass and inertia, it moves, the rear wheels do not turn against each other at the same speed, no contact patch is at rest along its wheel,
    and the submodels are defined where they are called *)
Record car_defined (p : vparams) (aero : R -> R -> R -> option (R * R)) (tire : corner -> R -> R -> R -> R -> R -> option (R * R)) (s : vstates) (u : vinputs) : Prop := {
  cd_sane : sane p; cd_moving : vx s <> 0; cd_rear : wheel_speed s rl <> - wheel_speed s rr; cd_patch : forall c, patch_speed p s u c <> 0;
  cd_sub : exists C, aero (vx s) (vy s) (yaw_rate s) = Some C /\ forall c, tire_arguments p (snd C * qdyn p s) s u c (fun Fz kappa alpha v gamma => exists F, tire c Fz kappa alpha v gamma = Some F) }.
(** the car moves along the road and is not at the centre of the bend *)
Definition on_road (n eta vx vy curvature : R) : Prop := n * curvature <> 1 /\ vx * cos eta <> vy * sin eta.
(** Perantoni's tire: two different reference loads, peak slips whose interpolation does not vanish at the load, shape factors *)
Record tire_defined (t : tparams) (Fz : R) : Prop := {
  td_loads : Fz1 t <> Fz2 t; td_ratio : kappa1 t * (Fz2 t - Fz) <> kappa2 t * (Fz1 t - Fz); td_angle : alpha1 t * (Fz2 t - Fz) <> alpha2 t * (Fz1 t - Fz); td_qx : Qx t <> 0; td_qy : Qy t <> 0 }.
(** the same values, field by field *)
Record same_return (a b : vreturn) : Prop := {
  sr_vx : d_vx a = d_vx b; sr_vy : d_vy a = d_vy b; sr_yaw : d_yaw_rate a = d_yaw_rate b; sr_w : forall c, d_wheel_speed a c = d_wheel_speed b c;
  sr_ax : o_ax a = o_ax b; sr_ay : o_ay a = o_ay b; sr_rl : o_drive_torque_rl a = o_drive_torque_rl b; sr_rr : o_drive_torque_rr a = o_drive_torque_rr b;
  sr_F : forall c, o_F a c = o_F b c; sr_ratio : forall c, o_slip_ratio a c = o_slip_ratio b c; sr_angle : forall c, o_slip_angle a c = o_slip_angle b c;
  sr_rax : o_res_ax a = o_res_ax b; sr_ray : o_res_ay a = o_res_ay b }.

(** the default bounds of the laptime simulation on the states and the driver's inputs (laptime_simulation.py:21-56); the assumed accelerations are not bounded *)
Record in_bounds (s : vstates) (u : vinputs) (eta : R) : Prop := {
  ib_eta : - (PI / 4) <= eta <= PI / 4; ib_vx : 5 <= vx s <= 100; ib_vy : -10 <= vy s <= 10; ib_yaw : - (2 * PI) <= yaw_rate s <= 2 * PI;
  ib_w : forall c, 1 / 10 <= wheel_speed s c <= 300; ib_throttle : 0 <= throttle u <= 1; ib_brake : 0 <= brake u <= 1; ib_steer : -1 <= steer u <= 1 }.
