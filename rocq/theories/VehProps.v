(** C41: the vehicle model obeys mechanics. *)
From Verif Require Import Base RBase VehModel VehSpec.

Ltac vunf := unfold vehicle_forward, f_total_force, f_total_moment, f_ax, f_ay, f_yaw_accel, f_wheel_speed_dot, sum4, f_moment_body, f_force_body, f_force_wheel, vplus, vscale, cross, rotate_z, f_drag, X, Y, Z;
  cbn [fst snd d_vx d_vy d_yaw_rate d_wheel_speed o_ax o_ay o_drive_torque_rl o_drive_torque_rr o_F o_slip_ratio o_slip_angle o_res_ax o_res_ay].

(** ** rotation into the wheel frame *)
Lemma sc1 : forall t, cos t * cos t + sin t * sin t = 1.
Proof. intro t. pose proof (sin2_cos2 t) as H. unfold Rsqr in H. lra. Qed.
Theorem C41_rotation : forall t t' u v, X (rotate_z t v) * X (rotate_z t v) + Y (rotate_z t v) * Y (rotate_z t v) = X v * X v + Y v * Y v /\ Z (rotate_z t v) = Z v /\
  rotate_z (- t) (rotate_z t v) = v /\ rotate_z t (rotate_z t' v) = rotate_z (t + t') v /\
  X (rotate_z t u) * X (rotate_z t v) + Y (rotate_z t u) * Y (rotate_z t v) = X u * X v + Y u * Y v.
Proof.
  intros t t' [[u1 u2] u3] [[a b] c]. unfold rotate_z, X, Y, Z. cbn [fst snd]. pose proof (sc1 t) as H. rewrite cos_neg, sin_neg. repeat split.
  - replace (_ + _) with ((cos t * cos t + sin t * sin t) * (a * a + b * b)) by ring. rewrite H. ring.
  - ring.
  - f_equal; [f_equal|].
    + replace (_ + _) with ((cos t * cos t + sin t * sin t) * a) by ring. rewrite H. ring.
    + replace (_ + _) with ((cos t * cos t + sin t * sin t) * b) by ring. rewrite H. ring.
    + ring.
  - rewrite cos_plus, sin_plus. f_equal; [f_equal|]; ring.
  - replace (_ + _) with ((cos t * cos t + sin t * sin t) * (u1 * a + u2 * b)) by ring. rewrite H. ring.
Qed.
Print Assumptions C41_rotation.

Section C41.
Variables (p : vparams) (aero : aero_model) (tire : corner -> tire_model) (s : vstates) (u : vinputs).
Let r := vehicle_forward p aero tire s u.
Let Cx := fst (aero (vx s) (vy s) (yaw_rate s)).
Let Cz := snd (aero (vx s) (vy s) (yaw_rate s)).
Let Fx c := X (o_F r c).
Let Fy c := Y (o_F r c).
Let Fz c := Z (o_F r c).
Lemma fz_load : forall c, Fz c = f_wheel_load p aero s u c.
Proof using. intro c. unfold Fz, r. vunf. ring. Qed.
Lemma qd : forall k, k * (1 / 2 * air_density p * (vx s ^ 2 + vy s ^ 2)) = k * qdyn p s.
Proof using. intro k. unfold qdyn. ring. Qed.

(** ** vertical loads: they carry weight and downforce, balance the pitch and roll moments of the demanded accelerations, and the balance splits the roll moment *)
Theorem C41_loads : sane p ->
  over Fz = vehicle_mass p * gravity p + Cz * qdyn p s /\
  over (fun c => Fz c * px p c) = - (vehicle_mass p * cog_height p * ax_in u) /\
  over (fun c => Fz c * py p c) = - (vehicle_mass p * cog_height p * ay_in u) /\
  Fz fl * py p fl + Fz fr * py p fr = mech_balance p * - (vehicle_mass p * cog_height p * ay_in u) /\
  Fz rl * py p rl + Fz rr * py p rr = (1 - mech_balance p) * - (vehicle_mass p * cog_height p * ay_in u).
Proof using.
  intros [H1 H2 H3 _ _ _]. unfold over. rewrite !fz_load. unfold f_wheel_load, f_long, f_lat_front, f_lat_rear, f_wdf, f_Fz_total, f_aero, f_roll_moment, f_pitch_moment. rewrite !qd. fold Cz. unfold px, py. repeat split; field; auto.
Qed.

(** ** drive torques: power conservation and differential; they are the only such pair *)
Theorem C41_drive : wheel_speed s rl + wheel_speed s rr <> 0 -> forall tl tr,
  (tl * wheel_speed s rl + tr * wheel_speed s rr = throttle u * max_power p /\ tl - tr = - kd p * (wheel_speed s rl - wheel_speed s rr)) <-> (tl = o_drive_torque_rl r /\ tr = o_drive_torque_rr r).
Proof using.
  intros H tl tr. unfold r. vunf. unfold f_drive_torque, f_drive_rl, f_delta_torque, f_drive_power. set (a := wheel_speed s rl) in *. set (b := wheel_speed s rr) in *. split.
  - intros [E1 E2]. assert (tr = tl + kd p * (a - b)) as -> by lra. rewrite <- E1. split; field; assumption.
  - intros [-> ->]. split; field; assumption.
Qed.

(** ** wheels: Euler's equation with the demanded brake torque; the tire force along the wheel acts at the rolling radius *)
Theorem C41_wheels : wheel_inertia p <> 0 -> forall c,
  wheel_inertia p * d_wheel_speed r c = drive_of r c - brake_of p u c - rolling_radius p * along (wheel_angle p u c) (Fx c) (Fy c).
Proof using.
  intros H c. assert (along (wheel_angle p u c) (Fx c) (Fy c) = X (f_force_wheel p aero tire s u c)) as ->.
  { unfold Fx, Fy, r. change (o_F (vehicle_forward p aero tire s u) c) with (rotate_z (- f_wheel_angle p u c) (f_force_wheel p aero tire s u c)). replace (f_wheel_angle p u c) with (wheel_angle p u c) by (destruct c; reflexivity). generalize (f_force_wheel p aero tire s u c), (wheel_angle p u c). intros w d. unfold along, rotate_z, X, Y, Z. cbn [fst snd]. rewrite cos_neg, sin_neg. destruct w as [[a b] z]. cbn [fst snd]. pose proof (sc1 d) as E. replace (_ + _) with ((cos d * cos d + sin d * sin d) * a) by ring. rewrite E. ring. }
  unfold r, vehicle_forward, f_wheel_speed_dot. cbn [d_wheel_speed]. unfold drive_of. replace (match c with fl | fr => 0 | rl => o_drive_torque_rl _ | rr => o_drive_torque_rr _ end) with (f_drive_torque p s u c) by (destruct c; reflexivity).
  replace (f_brake_torque p u c) with (brake_of p u c) by (unfold f_brake_torque, brake_of, f_total_brake; destruct c; field). field. assumption.
Qed.
Theorem C41_brakes : (forall c, f_brake_torque p u c = brake_of p u c) /\ over (brake_of p u) = max_total_brake_torque p * brake u /\ brake_of p u fl = brake_of p u fr /\ brake_of p u rl = brake_of p u rr /\ brake_of p u fl + brake_of p u fr = brake_balance p * (max_total_brake_torque p * brake u).
Proof using. unfold f_brake_torque, f_total_brake, over, brake_of. split; [intros [| | |]; field|]. repeat split; field. Qed.

(** ** tires: each tire is called with its load, the slips of its contact patch in the wheel's own frame and the speed along the wheel (left/right mirrored),
    and its forces act along and across the wheel *)
Theorem C41_tires : forall c, let d := wheel_angle p u c in let vl := along d (point_vx p s c) (point_vy p s c) in let vt := across d (point_vx p s c) (point_vy p s c) in
  let side := match c with fl | rl => 1 | fr | rr => -1 end in
  o_slip_ratio r c = rolling_radius p * wheel_speed s c / vx s - 1 /\ o_slip_angle r c = atan (vt / vl) /\
  along d (Fx c) (Fy c) = fst (tire c (Fz c) (o_slip_ratio r c) (o_slip_angle r c * side) vl 0) /\
  across d (Fx c) (Fy c) = snd (tire c (Fz c) (o_slip_ratio r c) (o_slip_angle r c * side) vl 0) * side.
Proof using.
  intros c d vl vt side. assert (X (f_vel_wheel p s u c) = vl /\ Y (f_vel_wheel p s u c) = vt) as [EX EY].
  { unfold vl, vt, d, f_vel_wheel, f_vel_body, rotate_z, along, across, point_vx, point_vy, px, py, wheel_angle, f_wheel_angle, f_steer, vplus, cross, f_pos, X, Y, Z. destruct c; cbn [fst snd]; split; field. }
  assert (o_slip_angle r c = atan (vt / vl)) as EA by (unfold r, vehicle_forward; cbn [o_slip_angle]; unfold f_alpha; now rewrite EX, EY).
  assert (f_tire p aero tire s u c = tire c (Fz c) (o_slip_ratio r c) (o_slip_angle r c * side) vl 0) as ET.
  { unfold f_tire. rewrite fz_load, EX. replace (mirror c) with side by (destruct c; reflexivity). f_equal. ring. }
  split; [unfold r, vehicle_forward; cbn [o_slip_ratio]; unfold f_kappa, Rdiv; ring|]. split; [assumption|].
  rewrite <- ET. unfold Fx, Fy, r. change (o_F (vehicle_forward p aero tire s u) c) with (rotate_z (- f_wheel_angle p u c) (f_force_wheel p aero tire s u c)).
  replace (f_wheel_angle p u c) with d by (destruct c; reflexivity). unfold f_force_wheel. replace (mirror c) with side by (destruct c; reflexivity). clear EX EY EA ET vl vt.
  unfold along, across, rotate_z, X, Y, Z. cbn [fst snd]. rewrite cos_neg, sin_neg. pose proof (sc1 d) as E. split.
  - replace (_ + _) with ((cos d * cos d + sin d * sin d) * fst (f_tire p aero tire s u c)) by ring. rewrite E. ring.
  - replace (_ - _) with ((cos d * cos d + sin d * sin d) * (snd (f_tire p aero tire s u c) * side)) by ring. rewrite E. ring.
Qed.

(** ** Newton and Euler for the body *)
Theorem C41_newton : sane p ->
  vehicle_mass p * (d_vx r - yaw_rate s * vy s) = over Fx - Cx * qdyn p s /\
  vehicle_mass p * (d_vy r + yaw_rate s * vx s) = over Fy /\
  Iz p * d_yaw_rate r = over (fun c => px p c * Fy c - py p c * Fx c) /\
  o_ax r = (over Fx - Cx * qdyn p s) / vehicle_mass p /\ o_ay r = over Fy / vehicle_mass p.
Proof using.
  intros [_ _ _ Hm HI _]. assert (forall k, (0 + k) = k) as Z0 by (intro; ring). unfold over, Fx, Fy, px, py, r. cbn [o_F d_vx d_vy d_yaw_rate o_ax o_ay vehicle_forward]. unfold f_ax, f_ay, f_yaw_accel, f_total_force, f_total_moment, sum4, f_moment_body, f_drag, f_aero.
  unfold qdyn. fold Cx. generalize (f_force_body p aero tire s u). intro F. unfold vscale, vplus, cross, f_pos, X, Y, Z. cbn [fst snd]. repeat split; field; auto.
Qed.

(** ** residuals: zero iff the demanded accelerations (used for the load transfer) are the resulting ones *)
Theorem C41_residuals : (o_res_ax r = 0 <-> o_ax r = ax_in u) /\ (o_res_ay r = 0 <-> o_ay r = ay_in u).
Proof using. unfold r. cbn [vehicle_forward o_res_ax o_res_ay o_ax o_ay]. split; split; lra. Qed.

(** ** energy: the kinetic energy changes by the engine power minus brakes, drag and the work of the sliding contact patches *)
Theorem C41_energy : sane p -> wheel_speed s rl + wheel_speed s rr <> 0 ->
  vehicle_mass p * (vx s * d_vx r + vy s * d_vy r) + Iz p * yaw_rate s * d_yaw_rate r + wheel_inertia p * over (fun c => wheel_speed s c * d_wheel_speed r c) =
  throttle u * max_power p - over (fun c => brake_of p u c * wheel_speed s c) - Cx * qdyn p s * vx s +
  over (fun c => let d := wheel_angle p u c in along d (Fx c) (Fy c) * (along d (point_vx p s c) (point_vy p s c) - rolling_radius p * wheel_speed s c) + across d (Fx c) (Fy c) * across d (point_vx p s c) (point_vy p s c)).
Proof using.
  intros Hs Hw. destruct (C41_newton Hs) as (N1 & N2 & N3 & _). destruct Hs as [_ _ _ _ _ HI]. destruct (proj2 (C41_drive Hw _ _) (conj eq_refl eq_refl)) as [D _].
  assert (wheel_inertia p * over (fun c => wheel_speed s c * d_wheel_speed r c) = throttle u * max_power p - over (fun c => brake_of p u c * wheel_speed s c) - over (fun c => rolling_radius p * along (wheel_angle p u c) (Fx c) (Fy c) * wheel_speed s c)) as ->.
  { rewrite <- D. pose proof (C41_wheels HI fl) as W1. pose proof (C41_wheels HI fr) as W2. pose proof (C41_wheels HI rl) as W3. pose proof (C41_wheels HI rr) as W4. unfold drive_of in *. unfold over.
    replace (wheel_inertia p * (wheel_speed s fl * d_wheel_speed r fl + wheel_speed s fr * d_wheel_speed r fr + wheel_speed s rl * d_wheel_speed r rl + wheel_speed s rr * d_wheel_speed r rr)) with (wheel_speed s fl * (wheel_inertia p * d_wheel_speed r fl) + wheel_speed s fr * (wheel_inertia p * d_wheel_speed r fr) + wheel_speed s rl * (wheel_inertia p * d_wheel_speed r rl) + wheel_speed s rr * (wheel_inertia p * d_wheel_speed r rr)) by ring. rewrite W1, W2, W3, W4. ring. }
  replace (vehicle_mass p * (vx s * d_vx r + vy s * d_vy r)) with (vx s * (vehicle_mass p * (d_vx r - yaw_rate s * vy s)) + vy s * (vehicle_mass p * (d_vy r + yaw_rate s * vx s))) by ring. rewrite N1, N2.
  replace (Iz p * yaw_rate s * d_yaw_rate r) with (yaw_rate s * (Iz p * d_yaw_rate r)) by ring. rewrite N3.
  assert (forall d a b k l w, along d a b * (along d k l - w) + across d a b * across d k l = a * k + b * l - along d a b * w) as K.
  { intros d a b k l w. unfold along, across. pose proof (sc1 d) as E. replace (_ + _) with ((cos d * cos d + sin d * sin d) * (a * k + b * l) - (a * cos d + b * sin d) * w) by ring. rewrite E. ring. }
  unfold over. cbv zeta. rewrite !K. unfold point_vx, point_vy. ring.
Qed.
End C41.
Print Assumptions C41_loads.
Print Assumptions C41_drive.
Print Assumptions C41_wheels.
Print Assumptions C41_tires.
Print Assumptions C41_newton.
Print Assumptions C41_energy.

(** ** left-right symmetry: with equal tires on both sides and an aero model that does not distinguish left and right, the mirrored situation has the mirrored derivatives *)
Theorem C41_symmetry : forall p aero tire s u,
  (forall c, tire (other_side c) = tire c) -> (forall a b c, aero a (- b) (- c) = aero a b c) -> wheel_speed s rl + wheel_speed s rr <> 0 ->
  let r := vehicle_forward p aero tire s u in let m := vehicle_forward p aero tire (mirrored_state s) (mirrored_input u) in
  d_vx m = d_vx r /\ d_vy m = - d_vy r /\ d_yaw_rate m = - d_yaw_rate r /\ (forall c, d_wheel_speed m c = d_wheel_speed r (other_side c)) /\
  (forall c, X (o_F m c) = X (o_F r (other_side c)) /\ Y (o_F m c) = - Y (o_F r (other_side c)) /\ Z (o_F m c) = Z (o_F r (other_side c))) /\
  o_drive_torque_rl m = o_drive_torque_rr r /\ (forall c, o_slip_ratio m c = o_slip_ratio r (other_side c) /\ o_slip_angle m c = - o_slip_angle r (other_side c)).
Proof.
  intros p aero tire s u Ht Ha Hw r m. set (s' := mirrored_state s) in *. set (u' := mirrored_input u) in *.
  assert (f_aero aero s' = f_aero aero s) as Ea by (unfold f_aero, s', mirrored_state; cbn [vx vy yaw_rate]; apply Ha).
  assert (f_Fz_total p aero s' = f_Fz_total p aero s) as Ef. { unfold f_Fz_total. rewrite Ea. unfold s', mirrored_state. cbn [vx vy]. f_equal. f_equal. ring. }
  assert (forall c, f_wheel_load p aero s' u' c = f_wheel_load p aero s u (other_side c)) as El.
  { intro c. unfold f_wheel_load. rewrite Ef. unfold f_lat_front, f_lat_rear, f_long, f_roll_moment, f_pitch_moment, u', mirrored_input. cbn [ax_in ay_in]. destruct c; cbn [other_side]; unfold Rdiv; ring. }
  assert (forall c, X (f_vel_wheel p s' u' c) = X (f_vel_wheel p s u (other_side c)) /\ Y (f_vel_wheel p s' u' c) = - Y (f_vel_wheel p s u (other_side c))) as Ev.
  { intro c. unfold f_vel_wheel, f_vel_body, rotate_z, vplus, cross, f_pos, X, Y, Z. replace (f_wheel_angle p u' c) with (- f_wheel_angle p u (other_side c)) by (destruct c; cbn; unfold f_steer, u', mirrored_input; cbn [steer]; ring). rewrite cos_neg, sin_neg. unfold s', mirrored_state. cbn [vx vy yaw_rate]. destruct c; cbn [other_side fst snd]; split; field. }
  assert (forall c, f_alpha p s' u' c = - f_alpha p s u (other_side c)) as Eal. { intro c. unfold f_alpha. destruct (Ev c) as [-> ->]. rewrite <- atan_opp. f_equal. unfold Rdiv. ring. }
  assert (forall c, f_kappa p s' c = f_kappa p s (other_side c)) as Ek by (intro c; reflexivity).
  assert (forall c, mirror (other_side c) = - mirror c) as Em by (intros [| | |]; cbn; ring).
  assert (forall c, f_tire p aero tire s' u' c = f_tire p aero tire s u (other_side c)) as Et.
  { intro c. unfold f_tire. rewrite El, Ek, Eal, (proj1 (Ev c)), Ht. rewrite Em. f_equal; ring. }
  assert (forall c, f_force_wheel p aero tire s' u' c = (X (f_force_wheel p aero tire s u (other_side c)), - Y (f_force_wheel p aero tire s u (other_side c)), Z (f_force_wheel p aero tire s u (other_side c)))) as Efw.
  { intro c. unfold f_force_wheel. rewrite Et, El, Em. unfold X, Y, Z. cbn [fst snd]. f_equal. f_equal. ring. }
  assert (forall c, f_force_body p aero tire s' u' c = (X (f_force_body p aero tire s u (other_side c)), - Y (f_force_body p aero tire s u (other_side c)), Z (f_force_body p aero tire s u (other_side c)))) as Efb.
  { intro c. unfold f_force_body. rewrite Efw. replace (f_wheel_angle p u' c) with (- f_wheel_angle p u (other_side c)) by (destruct c; cbn; unfold f_steer, u', mirrored_input; cbn [steer]; ring). generalize (f_force_wheel p aero tire s u (other_side c)), (f_wheel_angle p u (other_side c)). intros [[a b] z] d. unfold rotate_z, X, Y, Z. cbn [fst snd]. rewrite !cos_neg, !sin_neg. f_equal; [f_equal|]; ring. }
  assert (forall c, f_drive_torque p s' u' c = f_drive_torque p s u (other_side c)) as Ed.
  { intros c. destruct c; cbn [f_drive_torque other_side]; try reflexivity; unfold f_drive_rl, f_delta_torque, f_drive_power, s', u', mirrored_state, mirrored_input; cbn [wheel_speed other_side throttle]; field; lra. }
  assert (forall c, f_brake_torque p u' c = f_brake_torque p u (other_side c)) as Eb by (intros [| | |]; reflexivity).
  subst r m. unfold vehicle_forward. cbn [d_vx d_vy d_yaw_rate d_wheel_speed o_F o_drive_torque_rl o_drive_torque_rr o_slip_ratio o_slip_angle].
  assert (f_ax p aero tire s' u' = f_ax p aero tire s u /\ f_ay p aero tire s' u' = - f_ay p aero tire s u /\ f_yaw_accel p aero tire s' u' = - f_yaw_accel p aero tire s u) as (E1 & E2 & E3).
  { unfold f_ax, f_ay, f_yaw_accel, f_total_force, f_total_moment, sum4, f_moment_body, f_drag. rewrite !Efb, Ea. cbn [other_side]. unfold vscale, vplus, cross, f_pos, X, Y, Z. cbn [fst snd]. change (vx s') with (vx s). change (vy s') with (- vy s). unfold Rdiv. repeat split; ring. }
  rewrite E1, E2, E3. change (vx s') with (vx s). change (vy s') with (- vy s). change (yaw_rate s') with (- yaw_rate s).
  repeat split; try ring.
  - intro c. unfold f_wheel_speed_dot. rewrite Ed, Eb, Efw. reflexivity.
  - now rewrite Efb. - now rewrite Efb. - now rewrite Efb.
  - exact (Ed rl).
  - apply Eal.
Qed.
Print Assumptions C41_symmetry.

(** the slip ratio compares the wheel speed with the speed of the centre of gravity: a wheel that rolls freely in a turn has a slip ratio that is not zero *)
Definition p0 : vparams := {| max_power := 500000; max_steer_angle := 1 / 6; kd := 10; rolling_radius := 1 / 3; max_total_brake_torque := 16000; brake_balance := 3 / 5; cog_to_fa := 2; cog_to_ra := 2; cog_height := 3 / 10;
  track_front := 2; track_rear := 2; gravity := 10; vehicle_mass := 1800; Iz := 1200; wheel_inertia := 5; air_density := 6 / 5; mech_balance := 1 / 2 |}.
Definition s0 : vstates := {| vx := 10; vy := 0; yaw_rate := 1; wheel_speed := fun c => match c with fl | rl => 27 | _ => 33 end |}.
Definition u0 : vinputs := {| throttle := 1; brake := 0; steer := 0; ax_in := 0; ay_in := 10 |}.
Theorem C41_slip_refuted : forall aero tire, let r := vehicle_forward p0 aero tire s0 u0 in
  rolling_radius p0 * wheel_speed s0 rl = along (wheel_angle p0 u0 rl) (point_vx p0 s0 rl) (point_vy p0 s0 rl) /\ o_slip_ratio r rl <> 0.
Proof.
  intros aero tire r. unfold along, wheel_angle, point_vx, point_vy, r, vehicle_forward. cbn [o_slip_ratio]. unfold f_kappa, py, px. cbn. rewrite cos_0, sin_0. split; lra.
Qed.
Example C41_nonvacuous : sane p0 /\ wheel_speed s0 rl + wheel_speed s0 rr <> 0 /\ (forall aero tire, let r := vehicle_forward p0 aero tire s0 u0 in Z (o_F r fr) - Z (o_F r fl) = 2700).
Proof.
  split; [constructor; cbn; lra|]. split; [cbn; lra|]. intros aero tire r. unfold r. rewrite !fz_load. unfold f_wheel_load. generalize (f_Fz_total p0 aero s0), (f_wdf p0), (f_long p0 u0). intros A B C. unfold f_lat_front, f_roll_moment. cbn. lra.
Qed.
