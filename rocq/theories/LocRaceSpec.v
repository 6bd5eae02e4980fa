(** Vocabulary: where the equations of the vehicle on its track have derivatives. *)
From Verif Require Import Base RBase UtilsModel VehModel VehSpec TireModel DomSpec LocSpec.

(** the values of the states and the inputs of the car, by name *)
Definition car_values (ds di : dict R) (n eta : R) (s : vstates) (u : vinputs) (curvature : R) : Prop :=
  dget "n" ds = Some n /\ dget "eta" ds = Some eta /\ dget "vx" ds = Some (vx s) /\ dget "vy" ds = Some (vy s) /\ dget "yaw_rate" ds = Some (yaw_rate s) /\
  dget "wheel_speed_fl" ds = Some (wheel_speed s fl) /\ dget "wheel_speed_fr" ds = Some (wheel_speed s fr) /\ dget "wheel_speed_rl" ds = Some (wheel_speed s rl) /\ dget "wheel_speed_rr" ds = Some (wheel_speed s rr) /\
  dget "throttle" di = Some (throttle u) /\ dget "brake" di = Some (brake u) /\ dget "steer" di = Some (steer u) /\ dget "ax" di = Some (ax_in u) /\ dget "ay" di = Some (ay_in u) /\ dget "track_curvature" di = Some curvature.
(** all second partial derivatives exist on a domain *)
Definition has_second (D : list R -> Prop) (n : nat) (f : list R -> R) : Prop := exists H, hessian_on D (fun _ _ => True) n f H.
(** an aero model whose coefficients have second derivatives wherever what goes into it has *)
Definition smooth_aero (aero : aero_model) : Prop :=
  forall D n a b c, has_second D n a -> has_second D n b -> has_second D n c -> has_second D n (fun w => fst (aero (a w) (b w) (c w))) /\ has_second D n (fun w => snd (aero (a w) (b w) (c w))).
(** what the vehicle reads from Perantoni's tire, and the constant aero model *)
Definition perantoni_tires (t : tparams) : corner -> tire_model := fun _ Fz kappa alpha vx gamma => let r := perantoni t Fz kappa alpha vx gamma in (Fx r, Fy r).
Definition constant_aero (Cx Cz : R) : aero_model := fun _ _ _ => (Cx, Cz).
(** the car has a wheelbase, tracks, mass and inertia, it moves, the rear wheels do not turn against each other at the same speed, no contact patch is at rest along its wheel, the tires are
    defined at the loads of the wheels (with the lift of the aero model), and the car moves along the road *)
Definition race_domain (v : vparams) (t : tparams) (aero : aero_model) (_ : R) (ds di : dict R) : Prop :=
  exists n eta s u k, car_values ds di n eta s u k /\ sane v /\ vx s <> 0 /\ wheel_speed s rl <> - wheel_speed s rr /\ (forall c, patch_speed v s u c <> 0) /\
    (forall c, tire_defined t (static_load v (snd (aero (vx s) (vy s) (yaw_rate s)) * qdyn v s) u c)) /\ on_road n eta (vx s) (vy s) k.
