(** Lemmas for C72: the equations of the vehicle with Perantoni's tires and constant aero coefficients have second derivatives where they are defined. *)
From Verif Require Import Base RBase TreeModel UtilsModel IoModel AlgModel NlpModel OcpModel BuildModel BuildSpec VehModel VehSpec VehProps KinModel TireModel RaceModel RaceProofs RaceSpec RaceProofs2 DomSpec DomProofs
  JaxSpec LocSpec LocJaxSpec LocProofs LocCalc LocRaceSpec.
Import ListNotations.
Open Scope R_scope.

Ltac tw := cbv beta; match goal with
  | |- tw ?D ?n (fun x => ?c) => apply (tw_const D n c)
  | |- tw ?D ?n (fun x => vget ?i x) => apply (tw_coord D n i)
  | |- tw ?D ?n (vget ?i) => apply (tw_coord D n i)
  | |- tw ?D ?n (fun x => @?f x + @?g x) => apply (tw_plus D n f g); tw
  | |- tw ?D ?n (fun x => @?f x - @?g x) => apply (tw_minus D n f g); tw
  | |- tw ?D ?n (fun x => - @?f x) => apply (tw_opp D n f); tw
  | |- tw ?D ?n (fun x => ?c * @?f x) => apply (tw_scal D n c f); tw
  | |- tw ?D ?n (fun x => @?f x * @?g x) => apply (tw_mult D n f g); tw
  | |- tw ?D ?n (fun x => @?f x / ?c) => apply (tw_divc D n f c); tw
  | |- tw ?D ?n (fun x => @?f x / @?g x) => apply (tw_div D n f g); [|tw|tw]
  | |- tw ?D ?n (fun x => @?f x ^ 2) => apply (tw_pow2 D n f); tw
  | |- tw ?D ?n (fun x => sin (@?f x)) => apply (tw_sin D n f); tw
  | |- tw ?D ?n (fun x => cos (@?f x)) => apply (tw_cos D n f); tw
  | |- tw ?D ?n (fun x => atan (@?f x)) => apply (tw_atan D n f); tw
  | |- _ => try assumption
  end.

(** the states and inputs in a row of values *)
Definition row_s (w : list R) : vstates := {| vx := vget 3 w; vy := vget 4 w; yaw_rate := vget 5 w; wheel_speed := fun c => match c with fl => vget 6 w | fr => vget 7 w | rl => vget 8 w | rr => vget 9 w end |}.
Definition row_u (w : list R) : vinputs := {| throttle := vget 10 w; brake := vget 11 w; steer := vget 12 w; ax_in := vget 13 w; ay_in := vget 14 w |}.

Section Layers.
Variables (D : list R -> Prop) (n : nat) (v : vparams) (t : tparams) (aero : aero_model).
Hypothesis smooth : smooth_aero aero.
Lemma tw_aero : tw D n (fun w => fst (aero (vget 3 w) (vget 4 w) (vget 5 w))) /\ tw D n (fun w => snd (aero (vget 3 w) (vget 4 w) (vget 5 w))).
Proof using smooth. apply (smooth D n (vget 3) (vget 4) (vget 5)); apply tw_coord. Qed.
Lemma tw_patch : forall c, tw D n (fun w => patch_speed v (row_s w) (row_u w) c).
Proof using. intros []; unfold patch_speed, along, wheel_angle, point_vx, point_vy, px, py; cbn [row_s row_u vx vy yaw_rate steer]; tw. Qed.
Lemma tw_side : forall c, tw D n (fun w => across (wheel_angle v (row_u w) c) (point_vx v (row_s w) c) (point_vy v (row_s w) c)).
Proof using. intros []; unfold across, wheel_angle, point_vx, point_vy, px, py; cbn [row_s row_u vx vy yaw_rate steer]; tw. Qed.
Lemma tw_load : forall c, tw D n (fun w => f_wheel_load v aero (row_s w) (row_u w) c).
Proof using smooth.
  destruct tw_aero as [_ CZ]. intros []; unfold f_wheel_load, f_wdf, f_lat_front, f_lat_rear, f_roll_moment, f_long, f_pitch_moment, f_Fz_total, f_aero; cbn [row_s row_u vx vy yaw_rate ax_in ay_in snd]; tw.
Qed.
Lemma tw_static : forall c, tw D n (fun w => static_load v (snd (aero (vget 3 w) (vget 4 w) (vget 5 w)) * qdyn v (row_s w)) (row_u w) c).
Proof using smooth. destruct tw_aero as [_ CZ]. intros []; unfold static_load, qdyn; cbn [row_s row_u vx vy yaw_rate ax_in ay_in snd]; tw. Qed.
Lemma tw_tire : forall Fz k a y z, (forall w, List.length w = n -> D w -> tire_defined t (Fz w)) -> tw D n Fz -> tw D n k -> tw D n a ->
  tw D n (fun w => Fx (perantoni t (Fz w) (k w) (a w) (y w) (z w))) /\ tw D n (fun w => Fy (perantoni t (Fz w) (k w) (a w) (y w) (z w))).
Proof using.
  intros Fz k a y z TD A B C. unfold perantoni. cbn [Fx Fy].
  assert (tw D n (fun w => kappa_max t (Fz w))) as K by (unfold kappa_max, load_interp; tw). assert (tw D n (fun w => alpha_max t (Fz w))) as L by (unfold alpha_max, load_interp; tw).
  assert (tw D n (fun w => k w / kappa_max t (Fz w))) as KN.
  { apply (tw_div D n k (fun w => kappa_max t (Fz w))); try assumption. intros w Lw HD. destruct (TD w Lw HD) as [T1 T2 _ _ _]. apply interp_nz; [intro E; apply T1; lra|exact T2]. }
  assert (tw D n (fun w => a w / alpha_max t (Fz w))) as AN.
  { apply (tw_div D n a (fun w => alpha_max t (Fz w))); try assumption. intros w Lw HD. destruct (TD w Lw HD) as [T1 _ T2 _ _]. apply interp_nz; [intro E; apply T1; lra|exact T2]. }
  set (kn := fun w => k w / kappa_max t (Fz w)) in *. set (an := fun w => a w / alpha_max t (Fz w)) in *.
  assert (tw D n (fun w => rho (an w) (kn w))) as RH.
  { unfold rho. apply (tw_sqrt D n (fun w => an w ^ 2 + kn w ^ 2 + jitter)); [intros; apply rho_pos|]. tw. }
  assert (forall w, rho (an w) (kn w) <> 0) as RN by (intro w; unfold rho; apply Rgt_not_eq; apply sqrt_lt_R0; apply rho_pos).
  assert (forall Q, tw D n (fun w => shape Q (rho (an w) (kn w)))) as SH by (intro Q; unfold shape; cbv zeta; tw).
  split.
  - apply (tw_div D n (fun w => mux_max t (Fz w) * shape (Qx t) (rho (an w) (kn w)) * Fz w * kn w) (fun w => rho (an w) (kn w))); [auto| |exact RH]. unfold mux_max, load_interp. specialize (SH (Qx t)). tw.
  - apply (tw_div D n (fun w => - (muy_max t (Fz w) * shape (Qy t) (rho (an w) (kn w))) * Fz w * an w) (fun w => rho (an w) (kn w))); [auto| |exact RH]. unfold muy_max, load_interp. specialize (SH (Qy t)). tw.
Qed.
(** the equations of the vehicle *)
Hypothesis moving : forall w, List.length w = n -> D w -> vget 3 w <> 0.
Hypothesis rear : forall w, List.length w = n -> D w -> vget 8 w + vget 9 w <> 0.
Hypothesis patch : forall w c, List.length w = n -> D w -> patch_speed v (row_s w) (row_u w) c <> 0.
Hypothesis tires : forall w c, List.length w = n -> D w -> tire_defined t (f_wheel_load v aero (row_s w) (row_u w) c).
Let tire : corner -> tire_model := fun _ Fz kappa alpha vx gamma => let r := perantoni t Fz kappa alpha vx gamma in (Fx r, Fy r).
Lemma tw_kappa : forall c, tw D n (fun w => f_kappa v (row_s w) c).
Proof using moving. clear rear patch tires. intros []; unfold f_kappa; cbn [row_s vx wheel_speed]; tw; auto. Qed.
Lemma tw_alpha : forall c, tw D n (fun w => f_alpha v (row_s w) (row_u w) c).
Proof using patch.
  clear moving rear tires. intro c. unfold f_alpha. apply (tw_eq D n (fun w => atan (across (wheel_angle v (row_u w) c) (point_vx v (row_s w) c) (point_vy v (row_s w) c) / patch_speed v (row_s w) (row_u w) c))); [intro w; now rewrite wheel_X, wheel_Y|].
  apply (tw_atan D n (fun w => across (wheel_angle v (row_u w) c) (point_vx v (row_s w) c) (point_vy v (row_s w) c) / patch_speed v (row_s w) (row_u w) c)).
  apply (tw_div D n (fun w => across (wheel_angle v (row_u w) c) (point_vx v (row_s w) c) (point_vy v (row_s w) c)) (fun w => patch_speed v (row_s w) (row_u w) c)); [auto|apply tw_side|apply tw_patch].
Qed.
Lemma tw_force : forall c, tw D n (fun w => fst (f_tire v aero tire (row_s w) (row_u w) c)) /\ tw D n (fun w => snd (f_tire v aero tire (row_s w) (row_u w) c)).
Proof using smooth moving patch tires.
  clear rear. intro c. unfold f_tire, tire. cbn [fst snd].
  apply (tw_tire (fun w => f_wheel_load v aero (row_s w) (row_u w) c) (fun w => f_kappa v (row_s w) c) (fun w => f_alpha v (row_s w) (row_u w) c * mirror c) (fun w => X (f_vel_wheel v (row_s w) (row_u w) c)) (fun _ => 0 * mirror c)).
  - intros w. now apply tires.
  - apply tw_load.
  - apply tw_kappa.
  - apply (tw_mult D n (fun w => f_alpha v (row_s w) (row_u w) c) (fun _ => mirror c)); [apply tw_alpha|apply tw_const].
Qed.
Lemma tw_drive_rl : tw D n (fun w => f_drive_rl v (row_s w) (row_u w)).
Proof using rear. clear moving patch tires. unfold f_drive_rl, f_drive_power, f_delta_torque. cbn [row_s row_u throttle wheel_speed]. tw. exact rear. Qed.
Lemma tw_body : forall c, tw D n (fun w => X (f_force_body v aero tire (row_s w) (row_u w) c)) /\ tw D n (fun w => Y (f_force_body v aero tire (row_s w) (row_u w) c)).
Proof using smooth moving patch tires.
  clear rear. intro c. destruct (tw_force c) as [A B]. pose proof (tw_load c) as L. unfold f_force_body, rotate_z, f_force_wheel, X, Y, Z. cbn [fst snd].
  destruct c; unfold f_wheel_angle, f_steer; cbn [row_u steer]; split; tw.
Qed.
Lemma tw_ax : tw D n (fun w => f_ax v aero tire (row_s w) (row_u w)) /\ tw D n (fun w => f_ay v aero tire (row_s w) (row_u w)).
Proof using smooth moving patch tires.
  clear rear. destruct (tw_body fl) as [A1 B1]. destruct (tw_body fr) as [A2 B2]. destruct (tw_body rl) as [A3 B3]. destruct (tw_body rr) as [A4 B4]. destruct tw_aero as [CX CZ].
  unfold f_ax, f_ay, vscale, f_total_force, sum4, vplus, f_drag, f_aero, X, Y in *. cbn [fst snd row_s vx vy] in *. split; tw.
Qed.
Lemma tw_yaw : tw D n (fun w => f_yaw_accel v aero tire (row_s w) (row_u w)).
Proof using smooth moving patch tires.
  clear rear. destruct (tw_body fl) as [A1 B1]. destruct (tw_body fr) as [A2 B2]. destruct (tw_body rl) as [A3 B3]. destruct (tw_body rr) as [A4 B4].
  unfold f_yaw_accel, f_total_moment, sum4, vplus, f_moment_body, cross, f_pos, X, Y, Z in *. cbn [fst snd] in *. tw.
Qed.
Lemma tw_wheel : forall c, tw D n (fun w => f_wheel_speed_dot v aero tire (row_s w) (row_u w) c).
Proof using smooth moving patch tires rear.
  intro c. destruct (tw_force c) as [A _]. pose proof tw_drive_rl as DR. unfold f_wheel_speed_dot, f_force_wheel, f_brake_torque, f_total_brake, X. cbn [fst snd row_u brake].
  destruct c; unfold f_drive_torque, f_delta_torque; cbn [row_s wheel_speed]; tw.
Qed.
End Layers.
