(** Mechanics, as specification of the vehicle model. *)
From Verif Require Import Base RBase VehModel.

Definition over (f : corner -> R) : R := f fl + f fr + f rl + f rr.
(** geometry: longitudinal and lateral position of a wheel, and the corner on the other side *)
Definition px (p : vparams) (c : corner) : R := match c with fl | fr => cog_to_fa p | rl | rr => - cog_to_ra p end.
Definition py (p : vparams) (c : corner) : R := match c with fl => track_front p / 2 | fr => - (track_front p / 2) | rl => track_rear p / 2 | rr => - (track_rear p / 2) end.
Definition other_side (c : corner) : corner := match c with fl => fr | fr => fl | rl => rr | rr => rl end.
(** dynamic pressure *)
Definition qdyn (p : vparams) (s : vstates) : R := 1 / 2 * air_density p * (vx s * vx s + vy s * vy s).
(** steering angle of a wheel: only the front wheels steer *)
Definition wheel_angle (p : vparams) (u : vinputs) (c : corner) : R := match c with fl | fr => steer u * max_steer_angle p | rl | rr => 0 end.
(** components of a body-frame vector along and across a wheel turned left by [d] *)
Definition along (d : R) (a b : R) : R := a * cos d + b * sin d.
Definition across (d : R) (a b : R) : R := b * cos d - a * sin d.
(** velocity of the point of the rigid body above the contact patch *)
Definition point_vx (p : vparams) (s : vstates) (c : corner) : R := vx s - yaw_rate s * py p c.
Definition point_vy (p : vparams) (s : vstates) (c : corner) : R := vy s + yaw_rate s * px p c.
(** demanded brake torque of a wheel: total split front/rear by the balance, equal left and right *)
Definition brake_of (p : vparams) (u : vinputs) (c : corner) : R := max_total_brake_torque p * brake u * match c with fl | fr => brake_balance p / 2 | rl | rr => (1 - brake_balance p) / 2 end.
(** torque that the vehicle reports at a wheel *)
Definition drive_of (r : vreturn) (c : corner) : R := match c with fl | fr => 0 | rl => o_drive_torque_rl r | rr => o_drive_torque_rr r end.
(** parameters that describe a vehicle with a wheelbase and tracks *)
Record sane (p : vparams) : Prop := { sn_wb : cog_to_fa p + cog_to_ra p <> 0; sn_tf : track_front p <> 0; sn_tr : track_rear p <> 0; sn_m : vehicle_mass p <> 0; sn_iz : Iz p <> 0; sn_iw : wheel_inertia p <> 0 }.
(** the same situation seen in a mirror *)
Definition mirrored_state (s : vstates) : vstates := {| vx := vx s; vy := - vy s; yaw_rate := - yaw_rate s; wheel_speed := fun c => wheel_speed s (other_side c) |}.
Definition mirrored_input (u : vinputs) : vinputs := {| throttle := throttle u; brake := brake u; steer := - steer u; ax_in := ax_in u; ay_in := - ay_in u |}.
