(** C54, continued: laps go forward; the default car; findings; an example. *)
From Verif Require Import Base RBase TreeModel UtilsModel IoModel CollocModel CollocProofs CollocProps MeshModel MeshProps OcpModel OcpSpec OcpProofs OcpProps BoundModel BoundSpec ScaleModel ScaleSpec
  BuildModel BuildSpec BuildProps2 VehModel VehSpec KinModel TrackModel TrackSpec TrackProofs TrackProps2 LapModel LapSpec LapProofs LapProps LapProps2 LapProps4 TireModel RaceModel RaceProofs RaceSpec RaceProofs2 RaceProofs4 RaceProofs6 RaceProps.

(** Every lap of a sensible car on a gentle road within the default limits: at every point the car moves forward along the road and nothing is divided by zero; every step
    takes time, and the lap time is the integral of 1 / speed by the trapezoidal rule. *)
Theorem C54_forward : forall n pl f cyclic v aero tire k, sensible v -> gentle f -> drivable f -> (forall i, (i < n)%nat -> nth i pl 0 < nth (S i) pl 0) -> drive n pl f cyclic v aero tire k ->
  (forall s, (s <= n)%nat -> regular v (k s) /\ 0 < along_road (k s)) /\ (forall i, (i < n)%nat -> at_t (k i) < at_t (k (S i))) /\
  at_t (k n) - at_t (k 0%nat) = rsum (map (fun i => (nth (S i) pl 0 - nth i pl 0) * road_length f * ((1 / along_road (k i) + 1 / along_road (k (S i))) / 2)) (seq 0 n)).
Proof.
  intros n pl f cyclic v aero tire k SE GE DV PI DR.
  assert (forall s, (s <= n)%nat -> regular v (k s) /\ 0 < along_road (k s)) as RG by (intros s Hs; exact (drive_regular v aero tire SE n pl f cyclic GE k s DR Hs)).
  assert (forall i, (i < n)%nat -> at_t (k (S i)) - at_t (k i) = (nth (S i) pl 0 - nth i pl 0) * road_length f * ((1 / along_road (k i) + 1 / along_road (k (S i))) / 2)) as MV.
  { intros i Hi. apply (dr_moves _ _ _ _ _ _ _ _ DR i "time"); [exact Hi|left; reflexivity ..]. }
  split; [exact RG|]. split.
  - intros i Hi. specialize (MV i Hi). destruct (RG i ltac:(lia)) as [_ A]. destruct (RG (S i) ltac:(lia)) as [_ B]. specialize (PI i Hi).
    assert (0 < road_length f) as LP. { destruct (track_ok (fun _ => Ok [("# x_m", tf_x f); ("y_m", tf_y f); ("w_tr_right_m", tf_right f); ("w_tr_left_m", tf_left f)]) "" f ltac:(eexists; repeat split) DV) as (_ & _ & _ & Q & _). exact Q. }
    apply Rinv_0_lt_compat in A. apply Rinv_0_lt_compat in B. unfold Rdiv in MV. pose proof (Rmult_lt_0_compat _ _ (Rmult_lt_0_compat (nth (S i) pl 0 - nth i pl 0) _ ltac:(lra) LP) (Rplus_lt_0_compat _ _ A B)). lra.
  - clear PI RG. assert (forall j, (j <= n)%nat -> at_t (k j) - at_t (k 0%nat) = rsum (map (fun i => (nth (S i) pl 0 - nth i pl 0) * road_length f * ((1 / along_road (k i) + 1 / along_road (k (S i))) / 2)) (seq 0 j))) as H; [|now apply H].
    induction j as [|j IH]; intro Hj; [cbn; ring|]. rewrite seq_S, map_app. rewrite rsum_app. rewrite <- IH by lia. cbn [map plus]. rewrite <- MV by lia. unfold rsum. cbn [fold_right]. ring.
Qed.
Print Assumptions C54_forward.

(** The default limits of the states and inputs alone do not say so: they admit a car that slides backwards along the road, where time would decrease. *)
Theorem C54_backwards_refuted : exists m, (0 <= at_t m /\ - (PI / 4) <= at_eta m <= PI / 4 /\ 5 <= vx (at_car m) <= 100 /\ -10 <= vy (at_car m) <= 10 /\ - (2 * PI) <= yaw_rate (at_car m) <= 2 * PI /\
    0 <= throttle (at_driver m) <= 1 /\ 0 <= brake (at_driver m) <= 1 /\ -1 <= steer (at_driver m) <= 1 /\ forall c, 1 / 10 <= wheel_speed (at_car m) c <= 300) /\ at_curv m = 0 /\
  along_road m < 0 /\ forall r, In ("time", r) (per_metre m) -> r < 0.
Proof.
  pose proof PI_RGT_0 as HP.
  exists {| at_t := 0; at_n := 0; at_eta := PI / 4; at_car := {| vx := 5; vy := 10; yaw_rate := 0; wheel_speed := fun _ => 15 |}; at_driver := {| throttle := 0; brake := 0; steer := 0; ax_in := 0; ay_in := 0 |};
    at_curv := 0; at_head := 0; at_acc := {| vx := 0; vy := 0; yaw_rate := 0; wheel_speed := fun _ => 0 |}; at_ratio := fun _ => 0; at_angle := fun _ => 0 |}.
  set (m := {| at_t := 0 |}). assert (along_road m < 0) as A.
  { unfold along_road, m. cbn [at_car at_eta at_n at_curv vx vy]. rewrite <- sin_cos_PI4. assert (0 < sin (PI / 4)) by (apply sin_gt_0; lra). replace (1 - 0 * 0) with 1 by ring. unfold Rdiv. rewrite Rinv_1. lra. }
  split; [|split; [reflexivity|split; [exact A|]]].
  - unfold m. cbn [at_t at_eta at_car at_driver vx vy yaw_rate wheel_speed throttle brake steer]. repeat split; lra.
  - intros r [E|[E|[E|[E|[E|[E|[E|[E|[E|[E|[]]]]]]]]]]]; try discriminate. injection E as <-. unfold Rdiv. rewrite Rmult_1_l. now apply Rinv_lt_0_compat.
Qed.
Print Assumptions C54_backwards_refuted.

(** The default car is sensible. *)
Theorem C54_default_car : sensible default_vehicle.
Proof.
  pose proof PI_RGT_0 as HP. destruct (tan10 (PI / 18) ltac:(lra)) as [T _]. constructor; cbn; lra.
Qed.
Print Assumptions C54_default_car.

(** The default configuration with the vehicle is accepted on every drivable road, with 100 stages; so is every history of replacing tracks (drivable ones), parameters, and scales of its variables. *)
Theorem C54_default : forall P tire_out aero_out tire_f aero_f own jac hess js hs roots read_csv name f (p : P) cyc, shapes jac hess js hs -> oracle_ok roots None ->
  (forall q, exists v aero tire, realizes tire_out aero_out tire_f aero_f own q v aero tire) -> reads read_csv name f -> drivable f ->
  exists c l, make_ltc (Some name) None None None cyc None None None None None = Ok c /\ lap_construct roots read_csv (race_model tire_out aero_out tire_f aero_f own jac hess js hs) c p = Ok l /\
    num_stages (oc_op (a_o (l_a l))) = 100%nat.
Proof.
  intros P tire_out aero_out tire_f aero_f own jac hess js hs roots read_csv name f p cyc HS HO ALL HR HD.
  apply (C52_default roots read_csv P (race_model tire_out aero_out tire_f aero_f own jac hess js hs) name f p cyc HO eq_refl eq_refl); auto. now apply race_model_ok.
Qed.
Print Assumptions C54_default.
Theorem C54_accepts : forall P tire_out aero_out tire_f aero_f own jac hess js hs roots read_csv first (p : P) cyc c cs, shapes jac hess js hs -> oracle_ok roots None ->
  (forall q, exists v aero tire, realizes tire_out aero_out tire_f aero_f own q v aero tire) -> make_ltc (Some first) None None None cyc None None None None None = Ok c -> Forall tuning cs ->
  Forall (fun c => match c with LTrack name => exists f, reads read_csv name f /\ drivable f
                   | LOcp (SScales l) => forall s, In s l -> (sc_g s = "states" /\ In (sc_n s) lap_states) \/ (sc_g s = "inputs" /\ In (sc_n s) lap_inputs) \/ (sc_g s = "con_outputs" /\ In (sc_n s) usual_outputs)
                   | _ => True end) (LTrack first :: cs) ->
  exists l, lap_history roots read_csv (race_model tire_out aero_out tire_f aero_f own jac hess js hs) c p cs = Ok l.
Proof.
  intros P tire_out aero_out tire_f aero_f own jac hess js hs roots read_csv first p cyc c cs HS HO ALL EC HT HC. set (M := race_model _ _ _ _ _ _ _ _ _).
  pose proof (race_model_ok P tire_out aero_out tire_f aero_f own jac hess js hs HS ALL) as MO.
  pose proof (default_ok P M first cyc c eq_refl eq_refl MO EC) as CO.
  assert (lc_track c = Some first /\ cf_tname (lc_sim c) = "Trapezoidal" /\ cf_tns (lc_sim c) = None /\ cf_con (lc_sim c) = usual_outputs) as (E1 & E2 & E3 & E4) by (injection EC as <-; repeat split; reflexivity).
  apply (C52_accepts roots read_csv P M c first p cs trapezoidal E1); auto; try (cbn; tauto).
  - now rewrite E3.
  - now rewrite E2, E3.
  - assert (Forall tuning (LTrack first :: cs)) as HT' by (constructor; [exact I|exact HT]). rewrite Forall_forall in HC, HT' |- *. intros x Hx. specialize (HC x Hx). specialize (HT' x Hx). unfold lcall_ok. rewrite E4.
    destruct x as [y|]; [destruct y; try contradiction; cbn [call_ok]; try exact I|exact HC]. intros s Hs. specialize (HC s Hs). unfold scale_ok, known_var. change (m_states M) with lap_states. change (m_inputs M) with lap_inputs. tauto.
Qed.
Print Assumptions C54_accepts.
