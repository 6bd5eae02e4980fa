(** Model of lumos/models/vehicles/simple_vehicle.py evaluated with the CasADi backend: the vector quantities of [forward] are matrices built by the
    functions of lumos.numpy.casadi_numpy.  Scalars (torques, loads, slips) are computed by the same expressions as with numpy and are those of VehModel. *)
From Verif Require Import Base RBase CasModel LnpModel VehModel.

Section CasForward.
Variables (p : vparams) (aero : aero_model) (tire : corner -> tire_model) (s : vstates) (u : vinputs).
(** are the parameters CasADi symbols (as when a casadi function of the model is built with its parameters) or numbers? *)
Variable sym_params : bool.
Definition sym (r : R) : item := ISym (cscalar r).
Definition par (r : R) : item := if sym_params then ISym (cscalar r) else INum r.
(** simple_vehicle.py:26-41 [_rotate_z] of a symbol or of a number *)
Definition c_rotate (theta : R) (symbol : bool) : result arr :=
  let k (r : R) := if symbol then ESym (cscalar r) else ENum r in
  lnp_array [ISeq [k (cos theta); k (sin theta); ENum 0]; ISeq [k (- sin theta); k (cos theta); ENum 0]; ISeq [ENum 0; ENum 0; ENum 1]].
(** python's @ with at least one CasADi operand *)
Definition c_matmul (a b : arr) : result cmat := mtimes (dm a) (dm b).
(** simple_vehicle.py:246-251 *)
Definition c_pos (c : corner) : result arr :=
  lnp_array match c with
  | fl => [par (cog_to_fa p); par (track_front p / 2); par (- cog_height p)]
  | fr => [par (cog_to_fa p); par (- track_front p / 2); par (- cog_height p)]
  | rl => [par (- cog_to_ra p); par (track_rear p / 2); par (- cog_height p)]
  | rr => [par (- cog_to_ra p); par (- track_rear p / 2); par (- cog_height p)]
  end.
(** simple_vehicle.py:253-258 *)
Definition c_vel_body (c : corner) : result cmat :=
  bind (lnp_array [sym (vx s); sym (vy s); INum 0]) (fun vel =>
  bind (lnp_array [INum 0; INum 0; sym (yaw_rate s)]) (fun omega =>
  bind (c_pos c) (fun pos =>
  bind (lnp_cross omega pos (-1) (-1) (-1) None) (fun k => lnp_add vel (CasM k))))).
(** simple_vehicle.py:260-264; the rear wheel angle is the number 0 *)
Definition front (c : corner) : bool := match c with fl | fr => true | _ => false end.
Definition c_vel_wheel (c : corner) : result cmat :=
  bind (c_rotate (f_wheel_angle p u c) (front c)) (fun r => bind (c_vel_body c) (fun v => c_matmul r (CasM v))).
(** simple_vehicle.py:270-297; [vel[Vector3dEnum.Y]] is entry 1 of the column *)
Definition c_tire (c : corner) : result (R * cmat) :=
  bind (c_vel_wheel c) (fun vel =>
    let alpha := atan (ce vel 1 0 / ce vel 0 0) in
    let o := tire c (f_wheel_load p aero s u c) (f_kappa p s c) (alpha * mirror c) (ce vel 0 0) (0 * mirror c) in
    bind (lnp_array [sym (fst o); sym (snd o * mirror c); sym (f_wheel_load p aero s u c)]) (fun f => Ok (alpha, dm f))).
(** simple_vehicle.py:299-303 *)
Definition c_force_body (c : corner) : result cmat :=
  bind (c_tire c) (fun af => bind (c_rotate (- f_wheel_angle p u c) (front c)) (fun r => c_matmul r (CasM (snd af)))).
(** simple_vehicle.py:305-309 *)
Definition c_moment_body (c : corner) : result cmat :=
  bind (c_pos c) (fun pos => bind (c_force_body c) (fun f => lnp_cross pos (CasM f) (-1) (-1) (-1) None)).
(** simple_vehicle.py:318, 320 [reduce(add, ...)] over the corners fl, fr, rl, rr *)
Definition reduce_add (f : corner -> result cmat) : result cmat :=
  bind (f fl) (fun a => bind (f fr) (fun b => bind (f rl) (fun c => bind (f rr) (fun d =>
  bind (lnp_add (CasM a) (CasM b)) (fun ab => bind (lnp_add (CasM ab) (CasM c)) (fun abc => lnp_add (CasM abc) (CasM d))))))).
(** simple_vehicle.py:110-372 [SimpleVehicle.forward] *)
Definition cas_vehicle_forward : result vreturn :=
  bind (c_tire fl) (fun t1 => bind (c_tire fr) (fun t2 => bind (c_tire rl) (fun t3 => bind (c_tire rr) (fun t4 =>
  let t (c : corner) := match c with fl => t1 | fr => t2 | rl => t3 | rr => t4 end in
  bind (c_force_body fl) (fun f1 => bind (c_force_body fr) (fun f2 => bind (c_force_body rl) (fun f3 => bind (c_force_body rr) (fun f4 =>
  let f (c : corner) := match c with fl => f1 | fr => f2 | rl => f3 | rr => f4 end in
  bind (lnp_array [sym (- fst (f_aero aero s) * (1 / 2 * air_density p * (vx s ^ 2 + vy s ^ 2))); INum 0; INum 0]) (fun drag =>
  bind (reduce_add c_force_body) (fun total => bind (lnp_add (CasM total) drag) (fun total =>
  bind (reduce_add c_moment_body) (fun moment =>
  let ax := ce total 0 0 / vehicle_mass p in
  let ay := ce total 1 0 / vehicle_mass p in
  Ok {| d_vx := ax + yaw_rate s * vy s; d_vy := ay - yaw_rate s * vx s; d_yaw_rate := ce moment 2 0 / Iz p;
        d_wheel_speed := fun c => (f_drive_torque p s u c - f_brake_torque p u c - ce (snd (t c)) 0 0 * rolling_radius p) / wheel_inertia p;
        o_ax := ax; o_ay := ay; o_drive_torque_rl := f_drive_torque p s u rl; o_drive_torque_rr := f_drive_torque p s u rr;
        o_F := fun c => (ce (f c) 0 0, ce (f c) 1 0, ce (f c) 2 0);
        o_slip_ratio := f_kappa p s; o_slip_angle := fun c => fst (t c);
        o_res_ax := ax - ax_in u; o_res_ay := ay - ay_in u |})))))))))))).
End CasForward.
