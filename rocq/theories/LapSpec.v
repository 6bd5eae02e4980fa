(** Laps, in the user's terms: track files, the road they describe, and what a history of calls on a laptime simulation asked for. *)
From Verif Require Import Base RBase TreeModel UtilsModel CollocModel MeshModel OcpModel NlpModel BoundModel BoundSpec ScaleModel ScaleSpec BuildModel BuildSpec TrackModel TrackSpec LapModel.

(** ** Roads *)
(** a track file: points of the centre line and, at each, the distances to the two edges of the road *)
Record track_file := { tf_x : list R; tf_y : list R; tf_left : list R; tf_right : list R }.
(** the file is a table with these columns *)
Definition reads (read_csv : string -> result (dict (list R))) (name : string) (f : track_file) : Prop :=
  exists df, read_csv name = Ok df /\ dget "# x_m" df = Some (tf_x f) /\ dget "y_m" df = Some (tf_y f) /\ dget "w_tr_left_m" df = Some (tf_left f) /\ dget "w_tr_right_m" df = Some (tf_right f).
(** a road: at least two points, neighbours differ, it never turns back onto the point before the last, a width at every point, and the right edge is not left of the left one *)
Record drivable (f : track_file) : Prop := {
  dv_points : moving (tf_x f) (tf_y f); dv_return : no_return (tf_x f) (tf_y f); dv_left : List.length (tf_left f) = List.length (tf_x f); dv_right : List.length (tf_right f) = List.length (tf_x f);
  dv_width : forall i, (i < List.length (tf_x f))%nat -> - nth i (tf_right f) 0 <= nth i (tf_left f) 0 }.
(** the length of the centre line from the first point to the last *)
Definition road_length (f : track_file) : R :=
  rsum (map (fun i => pdist (nth i (tf_x f) 0) (nth i (tf_y f) 0) (nth (S i) (tf_x f) 0) (nth (S i) (tf_y f) 0)) (seq 0 (List.length (tf_x f) - 1))).
(** at distance [d] along the centre line: curvature, heading, and distances to the left and the right edge (piecewise linear between the points) *)
Definition road_at (f : track_file) (d c h l r : R) : Prop :=
  exists s k hd, curvilinear (tf_x f) (tf_y f) s k hd /\ piecewise_linear s k d c /\ piecewise_linear s hd d h /\ piecewise_linear s (tf_left f) d l /\ piecewise_linear s (tf_right f) d r.

(** ** What the history of calls asked for *)
Section Asked.
Context {P : Type}.
(** the track in force *)
Definition track_asked (first : string) (cs : list (lcall P)) : string := fold_left (fun acc c => match c with LTrack n => n | LOcp _ => acc end) cs first.
(** the calls other than set_track *)
Definition other_calls (cs : list (lcall P)) : list (scall P) := flat_map (fun c => match c with LOcp c => [c] | LTrack _ => [] end) cs.
(** the mesh and the mesh scale are left alone *)
Definition lplain (c : lcall P) : Prop := match c with LOcp (SMesh _) => False | LOcp (SMeshScale _) => False | _ => True end.
(** all tracks asked for are roads *)
Definition good_track (read_csv : string -> result (dict (list R))) (c : lcall P) : Prop := match c with LTrack n => exists f, reads read_csv n f /\ drivable f | LOcp _ => True end.

(** set_track bounds, stage by stage: the curvature and heading inputs are those of the road, n is between its edges *)
Definition track_settings (f : track_file) (t : transcription) (n : nat) (pts : list R) (bs : list setting) : Prop :=
  let nst := (n * (t_stages t - 1) + 1)%nat in
  exists c h l r, List.length c = nst /\ List.length h = nst /\ List.length l = nst /\ List.length r = nst /\
    (forall i j, (i < n)%nat -> (j < t_stages t)%nat -> let s := stage_of t i j in
       road_at f ((nth i pts 0 + unit_point t j * interval_length pts i) * road_length f) (nth s c 0) (nth s h 0) (nth s l 0) (nth s r 0)) /\
    bs = [{| k_g := "inputs"; k_n := "track_curvature"; k_stage := None; k_v := BAr (map Fin c) (map Fin c) |};
          {| k_g := "inputs"; k_n := "track_heading"; k_stage := None; k_v := BAr (map Fin h) (map Fin h) |};
          {| k_g := "states"; k_n := "n"; k_stage := None; k_v := BAr (map (fun v => Fin (- v)) r) (map Fin l) |}].
(** all bounds asked for, in the order of the calls *)
Inductive lap_bounds (read_csv : string -> result (dict (list R))) (t : transcription) (n : nat) (pts : list R) : list (lcall P) -> list setting -> Prop :=
| lb_nil : lap_bounds read_csv t n pts [] []
| lb_bounds : forall bs cs l, lap_bounds read_csv t n pts cs l -> lap_bounds read_csv t n pts (LOcp (SBounds bs) :: cs) (map of_bound bs ++ l)
| lb_track : forall name f bs cs l, reads read_csv name f -> track_settings f t n pts bs -> lap_bounds read_csv t n pts cs l -> lap_bounds read_csv t n pts (LTrack name :: cs) (bs ++ l)
| lb_other : forall c cs l, (forall bs, c <> SBounds bs) -> lap_bounds read_csv t n pts cs l -> lap_bounds read_csv t n pts (LOcp c :: cs) l.

(** no bound is asked for the variable after the last set_track, and no boundary condition at the stage *)
Fixpoint unbounded_after (g nm : string) (cs : list (lcall P)) : Prop :=
  match cs with
  | [] => True
  | c :: r => ((exists n, In (LTrack n) r) \/ match c with LOcp (SBounds bs) => forall b, In b bs -> ~ (bg b = g /\ bn b = nm) | _ => True end) /\ unbounded_after g nm r
  end.
Definition untouched (init : list bc_config) (cs : list (lcall P)) (nst : nat) (g nm : string) (s : nat) : Prop :=
  unbounded_after g nm cs /\
  forall b, In b (init ++ flat_map (fun c => match c with LOcp (SBCs l) => l | _ => [] end) cs) -> ~ (cg b = g /\ cn b = nm /\ (cstage b = Z.of_nat s \/ cstage b = Z.of_nat s - Z.of_nat nst)%Z).
End Asked.

(** ** The configuration *)
(** time and track_heading are never cyclic *)
Definition noncyclic_of (given : list string) (l : list string) : Prop :=
  (forall e, In e l <-> In e given \/ e = "states.time" \/ e = "inputs.track_heading") /\ (NoDup given -> NoDup l) /\ firstn (List.length given) l = given.

(** the defaults: bounds, the boundary condition (that of a cyclic lap), scales and constrained outputs *)
Definition usual_bounds : list (string * string * ebound * ebound) :=
  [("states", "time", Fin 0, PosInf); ("states", "eta", Fin (- PI / 4), Fin (PI / 4)); ("states", "vx", Fin 5, Fin 100); ("states", "vy", Fin (-10), Fin 10);
   ("states", "yaw_rate", Fin (- PI * 2), Fin (PI * 2)); ("inputs", "throttle", Fin 0, Fin 1); ("inputs", "brake", Fin 0, Fin 1); ("inputs", "steer", Fin (-1), Fin 1);
   ("states", "wheel_speed_fl", Fin (1 / 10), Fin 300); ("states", "wheel_speed_fr", Fin (1 / 10), Fin 300); ("states", "wheel_speed_rl", Fin (1 / 10), Fin 300); ("states", "wheel_speed_rr", Fin (1 / 10), Fin 300);
   ("con_outputs", "vehicle.slip_ratio_fl", Fin (- (5 / 100)), Fin (5 / 100)); ("con_outputs", "vehicle.slip_ratio_fr", Fin (- (5 / 100)), Fin (5 / 100));
   ("con_outputs", "vehicle.slip_ratio_rl", Fin (- (5 / 100)), Fin (5 / 100)); ("con_outputs", "vehicle.slip_ratio_rr", Fin (- (5 / 100)), Fin (5 / 100));
   ("con_outputs", "vehicle.slip_angle_fl", Fin (- (5 * PI / 180)), Fin (5 * PI / 180)); ("con_outputs", "vehicle.slip_angle_fr", Fin (- (5 * PI / 180)), Fin (5 * PI / 180));
   ("con_outputs", "vehicle.slip_angle_rl", Fin (- (5 * PI / 180)), Fin (5 * PI / 180)); ("con_outputs", "vehicle.slip_angle_rr", Fin (- (5 * PI / 180)), Fin (5 * PI / 180))].
Definition usual_scales : list (string * string * R) :=
  [("states", "time", 10); ("states", "vx", 10); ("states", "wheel_speed_fl", 50); ("states", "wheel_speed_fr", 50); ("states", "wheel_speed_rl", 50); ("states", "wheel_speed_rr", 50);
   ("states_dot", "wheel_speed_fl", 50); ("states_dot", "wheel_speed_fr", 50); ("states_dot", "wheel_speed_rl", 50); ("states_dot", "wheel_speed_rr", 50)].
Definition usual_outputs : list string :=
  ["vehicle.slip_ratio_fl"; "vehicle.slip_ratio_fr"; "vehicle.slip_ratio_rl"; "vehicle.slip_ratio_rr"; "vehicle.slip_angle_fl"; "vehicle.slip_angle_fr"; "vehicle.slip_angle_rl"; "vehicle.slip_angle_rr"].
Definition usual_start : bc_config := {| cstage := 0%Z; cg := "states"; cn := "time"; cv := BSc (Fin 0) (Fin 0) |}.
(** the value given, else the default *)
Definition as_given {A} (given : option A) (default v : A) : Prop := match given with Some w => v = w | None => v = default end.

(** ** The initial guess *)
(** the variables of the vehicle model on a track that the guess knows *)
Definition lap_states : list string := ["time"; "n"; "eta"; "vx"; "vy"; "yaw_rate"; "wheel_speed_fl"; "wheel_speed_fr"; "wheel_speed_rl"; "wheel_speed_rr"].
Definition lap_inputs : list string := ["throttle"; "brake"; "steer"; "ax"; "ay"; "track_curvature"; "track_heading"].
(** driving along the centre line at 50 m/s, the wheels (of radius 0.33 m) rolling without slip; [time] is the time since the start *)
Definition guess_state (time : R) (nm : string) : R :=
  if String.eqb nm "time" then time else if String.eqb nm "vx" then 50
  else if existsb (String.eqb nm) ["wheel_speed_fl"; "wheel_speed_fr"; "wheel_speed_rl"; "wheel_speed_rr"] then 50 / (33 / 100) else 0.
(** no pedals, no steering *)
Definition guess_input (k h : R) (nm : string) : R := if String.eqb nm "track_curvature" then k else if String.eqb nm "track_heading" then h else 0.
