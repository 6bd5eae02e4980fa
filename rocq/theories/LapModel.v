(** Model of lumos/simulations/laptime_simulation.py: the configuration class, the constructor, [set_track] and [get_init_guess], on top of the model of
    FixedMeshOCP (BuildModel), of the tracks (TrackModel) and of the bounds (BoundModel).  The problem is not condensed. *)
From Verif Require Import Base RBase TreeModel UtilsModel IoModel CollocModel MeshModel OcpModel NlpModel AlgModel BoundModel ScaleModel TrackModel BuildModel.

(** ** Configuration *)
(** laptime_simulation.py:21-56 [get_default_bounds]; np.deg2rad(5) is 5 * PI / 180 *)
Definition corners : list string := ["fl"; "fr"; "rl"; "rr"].
Definition sbound (g n : string) (l u : ebound) : bound_config := {| bg := g; bn := n; bv := BSc l u |}.
Definition default_bounds : list bound_config :=
  [sbound "states" "time" (Fin 0) PosInf; sbound "states" "eta" (Fin (- PI / 4)) (Fin (PI / 4)); sbound "states" "vx" (Fin 5) (Fin 100);
   sbound "states" "vy" (Fin (-10)) (Fin 10); sbound "states" "yaw_rate" (Fin (- PI * 2)) (Fin (PI * 2)); sbound "inputs" "throttle" (Fin 0) (Fin 1);
   sbound "inputs" "brake" (Fin 0) (Fin 1); sbound "inputs" "steer" (Fin (-1)) (Fin 1)] ++
  map (fun c => sbound "states" (String.append "wheel_speed_" c) (Fin (1 / 10)) (Fin 300)) corners ++
  map (fun c => sbound "con_outputs" (String.append "vehicle.slip_ratio_" c) (Fin (- (5 / 100))) (Fin (5 / 100))) corners ++
  map (fun c => sbound "con_outputs" (String.append "vehicle.slip_angle_" c) (Fin (- (5 * PI / 180))) (Fin (5 * PI / 180))) corners.
(** laptime_simulation.py:59-76 [get_default_boundary_conditions] *)
Definition sbc (n : string) (v : R) : bc_config := {| cstage := 0%Z; cg := "states"; cn := n; cv := BSc (Fin v) (Fin v) |}.
Definition default_bcs (is_cyclic : bool) : list bc_config :=
  if is_cyclic then [sbc "time" 0] else [sbc "time" 0; sbc "n" 0; sbc "eta" 0; sbc "vx" 50; sbc "vy" 0; sbc "yaw_rate" 0].
(** laptime_simulation.py:79-92 [get_default_scales] *)
Definition default_scales : list scale_config :=
  [{| sc_g := "states"; sc_n := "time"; sc_v := 10 |}; {| sc_g := "states"; sc_n := "vx"; sc_v := 10 |}] ++
  map (fun c => {| sc_g := "states"; sc_n := String.append "wheel_speed_" c; sc_v := 50 |}) corners ++
  map (fun c => {| sc_g := "states_dot"; sc_n := String.append "wheel_speed_" c; sc_v := 50 |}) corners.
(** laptime_simulation.py:95-104 [get_default_con_output_names] *)
Definition default_con : list string :=
  map (String.append "vehicle.slip_ratio_") corners ++ map (String.append "vehicle.slip_angle_") corners.

(** laptime_simulation.py:107-119 [LTCConfig]: the fields of SimConfig that the problem reads, and the track *)
Record ltc_config := { lc_sim : sim_config; lc_track : option string }.
Definition with_noncyclic (c : sim_config) (l : list string) : sim_config :=
  {| cf_n := cf_n c; cf_points := cf_points c; cf_tname := cf_tname c; cf_tns := cf_tns c; cf_cyclic := cf_cyclic c; cf_noncyclic := l; cf_con := cf_con c;
     cf_bounds := cf_bounds c; cf_bcs := cf_bcs c; cf_scales := cf_scales c; cf_pen := cf_pen c |}.
(** laptime_simulation.py:120-138 [__post_init__] (the one of SimConfig is in CfgModel); the default values of the fields (119) *)
Definition ltc_post (c : ltc_config) : result ltc_config :=
  match lc_track c with
  | None => Raise ValueError
  | Some _ =>
      Ok {| lc_sim := with_noncyclic (lc_sim c) (fold_left (fun l name => if mem name l then l else l ++ [name]) ["states.time"; "inputs.track_heading"] (cf_noncyclic (lc_sim c)));
            lc_track := lc_track c |}
  end.
Definition or_default {A} (given : option A) (default : A) : A := match given with Some v => v | None => default end.
Definition make_ltc (track : option string) (n : option nat) (points : option (list R)) (transcription : option (string * option nat)) (is_cyclic : option bool) (non_cyclic : option (list string))
    (con : option (list string)) (bounds : option (list bound_config)) (bcs : option (list bc_config)) (scales : option (list scale_config)) : result ltc_config :=
  let t := or_default transcription ("Trapezoidal", None) in
  ltc_post {| lc_track := track; lc_sim := {|
    cf_n := or_default n 99%nat; cf_points := points; cf_tname := fst t; cf_tns := snd t; cf_cyclic := or_default is_cyclic false; cf_noncyclic := or_default non_cyclic [];
    cf_con := or_default con default_con; cf_bounds := or_default bounds default_bounds; cf_bcs := or_default bcs (default_bcs true); cf_scales := or_default scales default_scales; cf_pen := None |} |}.

(** tracks.py:138-151 [RaceTrack.from_tum_csv]; a DataFrame is a dictionary of columns, a missing column is a KeyError *)
Definition from_tum_csv (df : dict (list R)) : result race_track :=
  bind (lookup_err "# x_m" df) (fun x => bind (lookup_err "y_m" df) (fun y =>
  bind (lookup_err "w_tr_left_m" df) (fun left => bind (lookup_err "w_tr_right_m" df) (fun right =>
  from_cartesian x y (Some left) (Some right))))).

Section Lap.
Variable roots : list R -> list R.
(** the file system: [pd.read_csv] *)
Variable read_csv : string -> result (dict (list R)).
Context {P : Type}.

(** the problem object: the attributes of FixedMeshOCP, and [_track] *)
Record lap := { l_a : attrs P; l_track : option race_track }.

(** laptime_simulation.py:164-165 [distance_mesh] *)
Definition distance_mesh (o : ocp) (t : race_track) : result (list R) :=
  bind (flat_mesh (oc_mesh o)) (fun fm => bind (total_distance t) (fun L => Ok (map (fun v => v * L) fm))).
(** laptime_simulation.py:187-197: the bounds; BoundConfig checks them *)
Definition track_bounds (o : ocp) (t : race_track) : result (list bound_config) :=
  bind (distance_mesh o t) (fun d =>
  bind (mapM (curvature_at t) d) (fun curvature =>
  bind (mapM (heading_at t) d) (fun heading =>
  bind (mapM (left_distance_at t) d) (fun left =>
  bind (mapM (right_distance_at t) d) (fun right =>
  let arr l := PArray 1 (map Fin l) in
  bind (make_bound_config "inputs" "track_curvature" (arr curvature) (arr curvature)) (fun b1 =>
  bind (make_bound_config "inputs" "track_heading" (arr heading) (arr heading)) (fun b2 =>
  bind (make_bound_config "states" "n" (arr (map Ropp right)) (arr left)) (fun b3 =>
  Ok [b1; b2; b3])))))))).
(** laptime_simulation.py:167-199 [set_track]: the state after it, also when it raises *)
Definition set_track (l : lap) (file : string) : lap * result unit :=
  match bind (read_csv file) from_tum_csv with
  | Raise e => (l, Raise e)
  | Ok t =>
      match total_distance t with
      | Raise e => ({| l_a := l_a l; l_track := Some t |}, Raise e)
      | Ok L =>
          let r := scall_step (l_a l) (SMeshScale L) in
          match snd r with
          | Raise e => ({| l_a := fst r; l_track := Some t |}, Raise e)
          | Ok _ =>
              match track_bounds (a_o (fst r)) t with
              | Raise e => ({| l_a := fst r; l_track := Some t |}, Raise e)
              | Ok bs => let r' := scall_step (fst r) (SBounds bs) in ({| l_a := fst r'; l_track := Some t |}, snd r')
              end
          end
      end
  end.

(** laptime_simulation.py:236, 243, 253: the weights of the penalty are the default arguments *)
Definition steer_weights : dict R := [("steer", 1)].
Definition with_penalty (c : sim_config) : sim_config :=
  {| cf_n := cf_n c; cf_points := cf_points c; cf_tname := cf_tname c; cf_tns := cf_tns c; cf_cyclic := cf_cyclic c; cf_noncyclic := cf_noncyclic c; cf_con := cf_con c;
     cf_bounds := cf_bounds c; cf_bcs := cf_bcs c; cf_scales := cf_scales c; cf_pen := Some steer_weights |}.
Definition lcheck (r : lap * result unit) : result lap := match snd r with Ok _ => Ok (fst r) | Raise e => Raise e end.
(** laptime_simulation.py:142-161 [__init__]; the model [M] is made from the class SimpleVehicleOnTrack *)
Definition lap_construct (M : smodel P) (c : ltc_config) (p : P) : result lap :=
  bind (construct roots M (with_penalty (lc_sim c)) (Some 1) p) (fun a =>
  match lc_track c with
  | None => Raise ValueError
  | Some f => lcheck (set_track {| l_a := a; l_track := None |} f)
  end).

(** the calls on the problem: those of FixedMeshOCP, and [set_track] *)
Inductive lcall := LOcp (c : scall P) | LTrack (file : string).
Definition lcall_step (l : lap) (c : lcall) : lap * result unit :=
  match c with
  | LOcp c => let r := scall_step (l_a l) c in ({| l_a := fst r; l_track := l_track l |}, snd r)
  | LTrack f => set_track l f
  end.
Fixpoint lcalls (l : lap) (cs : list lcall) : result lap :=
  match cs with [] => Ok l | c :: r => bind (lcheck (lcall_step l c)) (fun l' => lcalls l' r) end.
(** a history of successful calls on a constructed problem *)
Definition lap_history (M : smodel P) (c : ltc_config) (p : P) (cs : list lcall) : result lap :=
  bind (lap_construct M c p) (fun l => lcalls l cs).

(** states[:, i] = col; numpy refuses another number of rows (broadcasting of one value is not modelled) *)
Definition set_column (i : nat) (col : list R) (rows : list (list R)) : result (list (list R)) :=
  if Nat.eqb (List.length col) (List.length rows) then Ok (map2 (fun v row => upd i v row) col rows) else Raise ValueError.
(** base.py:621-628 [batched_forward], 748-751: the rows one by one; arrays of different leading sizes are refused by vmap *)
Fixpoint rows_forward (f : list R -> list R -> R -> result (list R * list R * list R * list R)) (ss us : list (list R)) (ds : list R) : result (list (list R * list R)) :=
  match ss, us, ds with
  | [], [], [] => Ok []
  | s :: ss, u :: us, d :: ds =>
      bind (f s u d) (fun r => let '(sd, _, con, _) := r in bind (rows_forward f ss us ds) (fun rest => Ok ((sd, con) :: rest)))
  | _, _, _ => Raise ValueError
  end.
(** laptime_simulation.py:273-334 [get_init_guess] *)
Definition get_init_guess (M : smodel P) (l : lap) : result (list R) :=
  match l_track l with
  | None => Raise AttributeError
  | Some t =>
      let o := a_o (l_a l) in let op := oc_op o in let nm := names_of M (a_con (l_a l)) in
      let vx := 50 in
      bind (distance_mesh o t) (fun d =>
      let dt := map (fun v => v / vx) (diff1 d) in
      let time := cumsum (0 :: dt) in
      let omega_no_slip := vx / (33 / 100) in
      bind (make_vector (nm "states") [("time", 0); ("n", 0); ("eta", 0); ("vx", vx); ("vy", 0); ("yaw_rate", 0); ("wheel_speed_fl", omega_no_slip); ("wheel_speed_fr", omega_no_slip);
        ("wheel_speed_rl", omega_no_slip); ("wheel_speed_rr", omega_no_slip)]) (fun states_vec =>
      bind (index_in_group op "states" "time") (fun time_idx =>
      bind (set_column time_idx time (repeat states_vec (num_stages op))) (fun states =>
      bind (make_vector (nm "inputs") [("throttle", 0); ("brake", 0); ("steer", 0); ("ax", 0); ("ay", 0); ("track_curvature", 0); ("track_heading", 0)]) (fun inputs_vec =>
      bind (get_var_index (nm "inputs") "track_curvature") (fun ci =>
      bind (mapM (curvature_at t) d) (fun curvature =>
      bind (set_column ci curvature (repeat inputs_vec (num_stages op))) (fun inputs =>
      bind (get_var_index (nm "inputs") "track_heading") (fun hi =>
      bind (mapM (heading_at t) d) (fun heading =>
      bind (set_column hi heading inputs) (fun inputs =>
      bind (rows_forward (forward_with_arrays nm (m_forward M (a_p (l_a l)))) states inputs d) (fun ret =>
      flatten_var op [("states", FArr states); ("inputs", FArr inputs); ("states_dot", FArr (map fst ret)); ("con_outputs", FArr (map snd ret))]))))))))))))
  end.
End Lap.
Arguments lap P : clear implicits.
Arguments lcall P : clear implicits.
