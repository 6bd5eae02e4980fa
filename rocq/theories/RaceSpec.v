(** Laps of the vehicle, discretized by the trapezoidal rule, in elementary terms. *)
From Verif Require Import Base RBase OcpModel UtilsModel OcpSpec BuildSpec BuildModel VehModel VehSpec TrackModel TrackSpec LapModel LapSpec.

(** ** One moment of a lap *)
(** time since the start, distance from the centre line (positive to the left), angle to the centre line, speeds of the car, what the driver does and the accelerations that
    the car is assumed to have (for its wheel loads), curvature and heading of the road, changes of the speeds per second, slips of the tires *)
Record moment := { at_t : R; at_n : R; at_eta : R; at_car : vstates; at_driver : vinputs; at_curv : R; at_head : R; at_acc : vstates; at_ratio : corner -> R; at_angle : corner -> R }.
(** the speed at which the car passes along the centre line *)
Definition along_road (m : moment) : R := (vx (at_car m) * cos (at_eta m) - vy (at_car m) * sin (at_eta m)) / (1 - at_n m * at_curv m).
(** the car is nearer to the centre line than the centre of the bend, it passes along the road, and no contact patch is at rest along its wheel *)
Record regular (v : vparams) (m : moment) : Prop := {
  rg_bend : 1 - at_n m * at_curv m <> 0; rg_speed : vx (at_car m) * cos (at_eta m) - vy (at_car m) * sin (at_eta m) <> 0;
  rg_wheels : forall c, along (wheel_angle v (at_driver m) c) (point_vx v (at_car m) c) (point_vy v (at_car m) c) <> 0 }.
(** all states by name, and how much they change per metre of road *)
Definition state_list (m : moment) : list (string * R) :=
  [("time", at_t m); ("n", at_n m); ("eta", at_eta m); ("vx", vx (at_car m)); ("vy", vy (at_car m)); ("yaw_rate", yaw_rate (at_car m)); ("wheel_speed_fl", wheel_speed (at_car m) fl);
   ("wheel_speed_fr", wheel_speed (at_car m) fr); ("wheel_speed_rl", wheel_speed (at_car m) rl); ("wheel_speed_rr", wheel_speed (at_car m) rr)].
Definition per_metre (m : moment) : list (string * R) :=
  [("time", 1 / along_road m); ("n", (vx (at_car m) * sin (at_eta m) + vy (at_car m) * cos (at_eta m)) / along_road m); ("eta", yaw_rate (at_car m) / along_road m - at_curv m);
   ("vx", vx (at_acc m) / along_road m); ("vy", vy (at_acc m) / along_road m); ("yaw_rate", yaw_rate (at_acc m) / along_road m); ("wheel_speed_fl", wheel_speed (at_acc m) fl / along_road m);
   ("wheel_speed_fr", wheel_speed (at_acc m) fr / along_road m); ("wheel_speed_rl", wheel_speed (at_acc m) rl / along_road m); ("wheel_speed_rr", wheel_speed (at_acc m) rr / along_road m)].
Definition input_list (m : moment) : list (string * R) :=
  [("throttle", throttle (at_driver m)); ("brake", brake (at_driver m)); ("steer", steer (at_driver m)); ("ax", ax_in (at_driver m)); ("ay", ay_in (at_driver m)); ("track_curvature", at_curv m); ("track_heading", at_head m)].
Definition slip_list (m : moment) : list (string * R) :=
  [("vehicle.slip_ratio_fl", at_ratio m fl); ("vehicle.slip_ratio_fr", at_ratio m fr); ("vehicle.slip_ratio_rl", at_ratio m rl); ("vehicle.slip_ratio_rr", at_ratio m rr);
   ("vehicle.slip_angle_fl", at_angle m fl); ("vehicle.slip_angle_fr", at_angle m fr); ("vehicle.slip_angle_rl", at_angle m rl); ("vehicle.slip_angle_rr", at_angle m rr)].

(** ** Mechanics: there are wheel forces (in the frame of the car, and vertical) and torques of the rear axle such that *)
Definition mechanics (v : vparams) (aero : aero_model) (tire : corner -> tire_model) (m : moment) : Prop :=
  let s := at_car m in let u := at_driver m in let a := at_acc m in let drag := fst (aero (vx s) (vy s) (yaw_rate s)) * qdyn v s in let lift := snd (aero (vx s) (vy s) (yaw_rate s)) * qdyn v s in
  let roll := - (vehicle_mass v * cog_height v * ay_in u) in
  exists (Fx Fy Fz : corner -> R) (left right : R),
    (* the vertical forces carry weight and downforce, balance the pitch and roll moments, and share the roll moment between the axles *)
    over Fz = vehicle_mass v * gravity v + lift /\ over (fun c => Fz c * px v c) = - (vehicle_mass v * cog_height v * ax_in u) /\
    Fz fl * py v fl + Fz fr * py v fr = mech_balance v * roll /\ Fz rl * py v rl + Fz rr * py v rr = (1 - mech_balance v) * roll /\
    (* slips, and the forces of the tires along and across the wheels *)
    (forall c, let d := wheel_angle v u c in let vl := along d (point_vx v s c) (point_vy v s c) in let vt := across d (point_vx v s c) (point_vy v s c) in let side := match c with fl | rl => 1 | fr | rr => -1 end in
       at_ratio m c = rolling_radius v * wheel_speed s c / vx s - 1 /\ at_angle m c = atan (vt / vl) /\
       along d (Fx c) (Fy c) = fst (tire c (Fz c) (at_ratio m c) (at_angle m c * side) vl 0) /\ across d (Fx c) (Fy c) = snd (tire c (Fz c) (at_ratio m c) (at_angle m c * side) vl 0) * side) /\
    (* power and differential *)
    left * wheel_speed s rl + right * wheel_speed s rr = throttle u * max_power v /\ left - right = - kd v * (wheel_speed s rl - wheel_speed s rr) /\
    (* wheels *)
    (forall c, wheel_inertia v * wheel_speed a c = match c with fl | fr => 0 | rl => left | rr => right end - brake_of v u c - rolling_radius v * along (wheel_angle v u c) (Fx c) (Fy c)) /\
    (* the body *)
    vehicle_mass v * (vx a - yaw_rate s * vy s) = over Fx - drag /\ vehicle_mass v * (vy a + yaw_rate s * vx s) = over Fy /\ Iz v * yaw_rate a = over (fun c => px v c * Fy c - py v c * Fx c) /\
    (* the assumed accelerations are those of the car *)
    vehicle_mass v * ax_in u = over Fx - drag /\ vehicle_mass v * ay_in u = over Fy.

(** ** Laps: moments at points 0 .. n of the road, which divide its length in the proportions of [pts] *)
Section Lap.
Variables (n : nat) (pts : list R) (f : track_file) (cyclic : bool) (v : vparams) (aero : aero_model) (tire : corner -> tire_model).
Record drive (k : nat -> moment) : Prop := {
  dr_mechanics : forall s, (s <= n)%nat -> mechanics v aero tire (k s);
  (* every state changes by the mean of its rates of change at both ends times the distance *)
  dr_moves : forall i nm a a' r r', (i < n)%nat -> In (nm, a) (state_list (k i)) -> In (nm, a') (state_list (k (S i))) -> In (nm, r) (per_metre (k i)) -> In (nm, r') (per_metre (k (S i))) ->
    a' - a = (nth (S i) pts 0 - nth i pts 0) * road_length f * ((r + r') / 2);
  (* the car stays on the road *)
  dr_road : forall s, (s <= n)%nat -> exists l r, road_at f (nth s pts 0 * road_length f) (at_curv (k s)) (at_head (k s)) l r /\ - r <= at_n (k s) <= l;
  dr_limits : forall s, (s <= n)%nat -> let m := k s in 0 <= at_t m /\ - (PI / 4) <= at_eta m <= PI / 4 /\ 5 <= vx (at_car m) <= 100 /\ -10 <= vy (at_car m) <= 10 /\ - (2 * PI) <= yaw_rate (at_car m) <= 2 * PI /\
    0 <= throttle (at_driver m) <= 1 /\ 0 <= brake (at_driver m) <= 1 /\ -1 <= steer (at_driver m) <= 1 /\
    forall c, 1 / 10 <= wheel_speed (at_car m) c <= 300 /\ - (5 / 100) <= at_ratio m c <= 5 / 100 /\ - (5 * PI / 180) <= at_angle m c <= 5 * PI / 180;
  dr_start : at_t (k 0%nat) = 0;
  (* a cyclic lap ends as it began, but for the time and the heading of the road *)
  dr_cyclic : cyclic = true -> (forall nm a, nm <> "time" -> In (nm, a) (state_list (k 0%nat)) -> In (nm, a) (state_list (k n))) /\
    (forall nm a, nm <> "track_heading" -> In (nm, a) (input_list (k 0%nat)) -> In (nm, a) (input_list (k n))) }.
(** lap time and mean of the squares of the steering input *)
Definition lap_cost (k : nat -> moment) : R := at_t (k n) - at_t (k 0%nat) + rsum (map (fun s => steer (at_driver (k s)) * steer (at_driver (k s))) (seq 0 (n + 1))) / INR (n + 1).
(** the vector of variables holds the moments *)
Record logs (o : ocp) (x : list R) (k : nat -> moment) : Prop := {
  lg_len : List.length x = num_dec (oc_op o);
  lg_state : forall s nm a, (s <= n)%nat -> In (nm, a) (state_list (k s)) -> val o x "states" nm s a;
  lg_input : forall s nm a, (s <= n)%nat -> In (nm, a) (input_list (k s)) -> val o x "inputs" nm s a;
  lg_rate : forall s nm a, (s <= n)%nat -> In (nm, a) (per_metre (k s)) -> val o x "states_dot" nm s a;
  lg_slip : forall s nm a, (s <= n)%nat -> In (nm, a) (slip_list (k s)) -> val o x "con_outputs" nm s a }.
End Lap.

(** ** Parameters and submodels *)
(** the vehicle's own parameters by name *)
Definition own_params (d : dict R) (v : vparams) : Prop :=
  dget "max_power" d = Some (max_power v) /\ dget "max_steer_angle" d = Some (max_steer_angle v) /\ dget "kd" d = Some (kd v) /\ dget "rolling_radius" d = Some (rolling_radius v) /\
  dget "max_total_brake_torque" d = Some (max_total_brake_torque v) /\ dget "brake_balance" d = Some (brake_balance v) /\ dget "cog_to_fa" d = Some (cog_to_fa v) /\ dget "cog_to_ra" d = Some (cog_to_ra v) /\
  dget "cog_height" d = Some (cog_height v) /\ dget "track_front" d = Some (track_front v) /\ dget "track_rear" d = Some (track_rear v) /\ dget "gravity" d = Some (gravity v) /\
  dget "vehicle_mass" d = Some (vehicle_mass v) /\ dget "Iz" d = Some (Iz v) /\ dget "wheel_inertia" d = Some (wheel_inertia v) /\ dget "air_density" d = Some (air_density v) /\ dget "mech_balance" d = Some (mech_balance v).
(** with these parameters the aero model and the tire models compute these functions, and return everything they declare *)
Record realizes {P} (tire_out aero_out : list string) (tire_f : P -> corner -> dict R -> result (dict R)) (aero_f : P -> dict R -> result (dict R)) (own : P -> dict R)
    (q : P) (v : vparams) (aero : aero_model) (tire : corner -> tire_model) : Prop := {
  rz_own : own_params (own q) v;
  rz_aero : forall a b c, exists d, aero_f q [("front_ride_height", a); ("rear_ride_height", b); ("yaw", c)] = Ok d /\ NoDup (keys d) /\ incl aero_out (keys d) /\
    dget "Cx" d = Some (fst (aero a b c)) /\ dget "Cz" d = Some (snd (aero a b c));
  rz_tire : forall c Fz kappa alpha vx gamma, exists d, tire_f q c [("Fz", Fz); ("kappa", kappa); ("alpha", alpha); ("vx", vx); ("gamma", gamma)] = Ok d /\ NoDup (keys d) /\ incl tire_out (keys d) /\
    dget "Fx" d = Some (fst (tire c Fz kappa alpha vx gamma)) /\ dget "Fy" d = Some (snd (tire c Fz kappa alpha vx gamma)) }.
(** the sizes of the derivative functions: 10 states, 7 inputs, 10 derivatives, 8 outputs: 35 variables; 10 + 8 + 2 equations *)
Definition shapes {P} (jac : list string -> list R -> R -> P -> list R) (hess : list string -> list R -> list R -> R -> P -> list R) (js hs : list string -> list nat * list nat) : Prop :=
  let con := usual_outputs in
  (forall w m p, List.length w = 35%nat -> List.length (jac con w m p) = List.length (fst (js con))) /\
  (forall w l m p, List.length w = 35%nat -> List.length l = 20%nat -> List.length (hess con w l m p) = List.length (fst (hs con))) /\
  (List.length (fst (js con)) = List.length (snd (js con)) /\ Forall (fun r => r < 20)%nat (fst (js con)) /\ Forall (fun c => c < 35)%nat (snd (js con))) /\
  (List.length (fst (hs con)) = List.length (snd (hs con)) /\ Forall (fun r => r < 35)%nat (fst (hs con)) /\ Forall (fun c => c < 35)%nat (snd (hs con))).
(** the track is replaced, the parameters or the scales; nothing else *)
Definition tuning {P} (c : lcall P) : Prop := match c with LTrack _ | LOcp (SParams _) | LOcp (SScales _) => True | _ => False end.

(** ** Cars and roads *)
(** the masses and lengths are positive, no track is wider than 1.5 m, the wheels steer by at most 10 degrees, and the turning circle is not tighter than this *)
Record sensible (v : vparams) : Prop := {
  se_fa : 0 < cog_to_fa v; se_ra : 0 < cog_to_ra v; se_tf : 0 < track_front v <= 3 / 2; se_tr : 0 < track_rear v <= 3 / 2; se_steer : 0 <= max_steer_angle v <= PI / 18;
  se_turn : (cog_to_fa v + cog_to_ra v) * tan (max_steer_angle v) <= track_front v / 2; se_m : vehicle_mass v <> 0; se_iz : Iz v <> 0; se_iw : wheel_inertia v <> 0 }.
(** the bends are wider than the road: its edges do not reach the centre of the bend *)
Definition gentle (f : track_file) : Prop := forall d c h l r, road_at f d c h l r -> l * c < 1 /\ - r * c < 1.
