(** C70: where the equations of the car are defined. *)
From Verif Require Import Base RBase VehModel VehSpec TireModel PacModel PacSpec RaceModel DomModel DomSpec DomProofs DomProofs2 PacProps PacProps4.
From Coq Require Import Lra Psatz.
Open Scope R_scope.

(** Perantoni's tire is defined exactly at the loads at which no interpolated peak slip vanishes, and then has the forces of C46. *)
Theorem C70_tire : forall t Fz kappa alpha v gamma,
  ((exists f, ck_perantoni t Fz kappa alpha v gamma = Some f) <-> tire_defined t Fz) /\
  (forall f, ck_perantoni t Fz kappa alpha v gamma = Some f -> f = perantoni t Fz kappa alpha v gamma).
Proof.
  intros t Fz kappa alpha v gamma. split; [split|].
  - intros [f H]. apply ck_perantoni_some in H. apply H.
  - intros H. exists (perantoni t Fz kappa alpha v gamma). apply ck_perantoni_some. auto.
  - intros f H. apply ck_perantoni_some in H. apply H.
Qed.
(** With the default parameters these are all loads but two. *)
Theorem C70_default_tire : forall Fz, tire_defined default_tire Fz <-> Fz <> 38000 /\ Fz <> 46000.
Proof. exact default_tire_defined. Qed.
(** The kinematics are defined exactly for a car that moves along the road and is not at the centre of the bend. *)
Theorem C70_kinematics : forall n eta vx vy w k,
  ((exists t, ck_kinematics n eta vx vy w k = Some t) <-> on_road n eta vx vy k) /\
  (forall t dn de, ck_kinematics n eta vx vy w k = Some (t, dn, de) ->
     let v := (vx * cos eta - vy * sin eta) / (1 - n * k) in t * v = 1 /\ dn * v = vx * sin eta + vy * cos eta /\ de * v = w - k * v).
Proof.
  intros n eta vx vy w k. split; [split|].
  - intros [t H]. apply ck_kinematics_some in H. apply H.
  - intros H. eexists. apply ck_kinematics_some. split; [exact H|reflexivity].
  - intros t dn de H. apply ck_kinematics_some in H. destruct H as [[N1 N2] E]. cbv zeta in E. injection E as -> -> ->.
    assert (N3 : vx * cos eta - vy * sin eta <> 0) by (intros E; apply N2; lra). assert (N4 : 1 - n * k <> 0) by (intros E; apply N1; lra).
    cbv zeta. repeat split; field; auto.
Qed.
(** The vehicle is defined exactly where [car_defined] says, and then returns what C41 describes: [aero'] and [tire'] are any total functions that agree with the
    submodels where these are defined. *)
Theorem C70_vehicle : forall p s u aero tire (aero' : aero_model) (tire' : corner -> tire_model),
  (forall a b c C, aero a b c = Some C -> aero' a b c = C) -> (forall c Fz kappa alpha v g F, tire c Fz kappa alpha v g = Some F -> tire' c Fz kappa alpha v g = F) ->
  ((exists r, ck_vehicle p aero tire s u = Some r) <-> car_defined p aero tire s u) /\
  (forall r, ck_vehicle p aero tire s u = Some r -> same_return r (vehicle_forward p aero' tire' s u)).
Proof.
  intros p s u aero tire aero' tire' XA XT. split; [split|].
  - intros [r H]. eapply ck_vehicle_fwd; eassumption.
  - apply ck_vehicle_back with (aero' := aero'). exact XA.
  - intros r H. eapply ck_vehicle_fwd; eassumption.
Qed.
(** The vehicle on the track is defined where both are; its derivatives over the distance. *)
Theorem C70_on_track : forall p s u aero tire (aero' : aero_model) (tire' : corner -> tire_model) n eta k,
  (forall a b c C, aero a b c = Some C -> aero' a b c = C) -> (forall c Fz kappa alpha v g F, tire c Fz kappa alpha v g = Some F -> tire' c Fz kappa alpha v g = F) ->
  ((exists l, ck_on_track p aero tire s u n eta k = Some l) <-> car_defined p aero tire s u /\ on_road n eta (vx s) (vy s) k) /\
  (forall l, ck_on_track p aero tire s u n eta k = Some l ->
     let v := (vx s * cos eta - vy s * sin eta) / (1 - n * k) in let r := vehicle_forward p aero' tire' s u in
     v <> 0 /\ map (fun x => x * v) l = [1; vx s * sin eta + vy s * cos eta; yaw_rate s - k * v; d_vx r; d_vy r; d_yaw_rate r; d_wheel_speed r fl; d_wheel_speed r fr; d_wheel_speed r rl; d_wheel_speed r rr]).
Proof.
  intros p s u aero tire aero' tire' n eta k XA XT. unfold ck_on_track. split; [split|].
  - intros [l H]. apply obind_some in H. destruct H as (r & E1 & H). apply obind_some in H. destruct H as (t & E2 & _). apply ck_kinematics_some in E2. split; [eapply ck_vehicle_fwd; eassumption | apply E2].
  - intros [H1 H2]. destruct (ck_vehicle_back p s u aero tire aero' XA H1) as [r E1]. rewrite E1. cbn [obind].
    destruct (ck_kinematics n eta (vx s) (vy s) (yaw_rate s) k) as [t|] eqn:E2; [eexists; reflexivity|]. exfalso.
    assert (E3 : ck_kinematics n eta (vx s) (vy s) (yaw_rate s) k = Some (let v := (vx s * cos eta - vy s * sin eta) / (1 - n * k) in (1 / v, (vx s * sin eta + vy s * cos eta) / v, (yaw_rate s - k * v) / v)))
      by (apply ck_kinematics_some; split; [exact H2|reflexivity]). rewrite E2 in E3. discriminate.
  - intros l H. apply obind_some in H. destruct H as (r & E1 & H). apply obind_some in H. destruct H as (t & E2 & H). apply ck_kinematics_some in E2. destruct E2 as [[N1 N2] ->].
    cbv zeta in H. cbn [fst snd] in H. apply some_inj in H. subst l. cbv zeta.
    assert (N3 : vx s * cos eta - vy s * sin eta <> 0) by (intros E; apply N2; lra). assert (N4 : 1 - n * k <> 0) by (intros E; apply N1; lra).
    set (v := (vx s * cos eta - vy s * sin eta) / (1 - n * k)). assert (NV : v <> 0) by (unfold v, Rdiv; apply Rmult_integral_contrapositive_currified; [exact N3 | apply Rinv_neq_0_compat, N4]).
    split; [exact NV|]. destruct (proj2 (ck_vehicle_fwd p s u aero tire aero' tire' XA XT r E1)) as [A1 A2 A3 A4 _ _ _ _ _ _ _ _ _]. rewrite <- A1, <- A2, <- A3, <- !A4.
    cbn [map app]. repeat (apply f_equal2; [field; exact NV|]). reflexivity.
Qed.
(** A car at rest is outside the model, and so is one whose forward speed at some wheel vanishes: nothing in the inputs can repair that. *)
Theorem C70_standstill_refuted : forall p aero tire s u n eta k, vx s = 0 -> ck_vehicle p aero tire s u = None /\ ck_on_track p aero tire s u n eta k = None.
Proof.
  intros p aero tire s u n eta k H. assert (E : ck_vehicle p aero tire s u = None).
  { destruct (ck_vehicle p aero tire s u) as [r|] eqn:E; [exfalso|reflexivity].
    pose (aero' := fun a b c => match aero a b c with Some C => C | None => (0, 0) end). pose (tire' := fun c a1 a2 a3 a4 a5 => match tire c a1 a2 a3 a4 a5 with Some F => F | None => (0, 0) end).
    assert (XA : forall a b c C, aero a b c = Some C -> aero' a b c = C) by (intros a b c C Q; unfold aero'; rewrite Q; reflexivity).
    assert (XT : forall c Fz kappa alpha v g F, tire c Fz kappa alpha v g = Some F -> tire' c Fz kappa alpha v g = F) by (intros c a1 a2 a3 a4 a5 F Q; unfold tire'; rewrite Q; reflexivity).
    destruct (ck_vehicle_fwd p s u aero tire aero' tire' XA XT r E) as [[_ N _ _ _] _]. contradiction. }
  split; [exact E|]. unfold ck_on_track. rewrite E. reflexivity.
Qed.

(** ** The default bounds of the laptime simulation *)
(** The default car (MF52 tires), within the bounds: defined whenever it slides less than it drives forward, does not spin faster than half its speed (rad/s against m/s), the
    assumed accelerations are at most 15 m/s^2 and the car is not beyond the centre of the bend. *)
Theorem C70_default : forall opt_mode s u n eta k, in_bounds s u eta -> Rabs (vy s) < vx s -> 2 * Rabs (yaw_rate s) <= vx s -> Rabs (ax_in u) <= 15 -> Rabs (ay_in u) <= 15 -> n * k < 1 ->
  exists l, ck_on_track default_vehicle (ck_const_aero (6 / 10) (19 / 10)) (ck_mf_tire opt_mode mf_default) s u n eta k = Some l.
Proof.
  intros opt_mode s u n eta k [B1 B2 B3 B4 B5 B6 B7 B8] HY HW HA HB HK.
  set (tire := ck_mf_tire opt_mode mf_default). pose (tire' := fun c a1 a2 a3 a4 a5 => match tire c a1 a2 a3 a4 a5 with Some F => F | None => (0, 0) end).
  apply (fun XA XT => proj2 (proj1 (C70_on_track default_vehicle s u _ tire (fun _ _ _ => (6 / 10, 19 / 10)) tire' n eta k XA XT))).
  - intros a b c C E. injection E as <-. reflexivity.
  - intros c a1 a2 a3 a4 a5 F Q. unfold tire'. rewrite Q. reflexivity.
  - split.
    + split; [split; cbn [default_vehicle cog_to_fa cog_to_ra track_front track_rear vehicle_mass Iz wheel_inertia]; lra | lra | pose proof (B5 rl); pose proof (B5 rr); lra | |].
      * intros c. pose proof (patch_default s u c B8 ltac:(lra) (conj HY HW)). lra.
      * eexists. split; [reflexivity|]. intros c. unfold tire_arguments. cbv zeta. cbn [snd].
        pose proof (load_default s u c 15 B2 B3 HA HB) as L. cbv zeta in L. set (Fz := static_load _ _ _ _) in *. unfold tire, ck_mf_tire.
        match goal with |- exists F, match mf_forward opt_mode mf_default ?ii with _ => _ end = _ => set (inputs := ii) end.
        destruct (C55_default_defined opt_mode inputs Fz (rolling_radius default_vehicle * wheel_speed s c / vx s - 1)
          (atan (across (wheel_angle default_vehicle u c) (point_vx default_vehicle s c) (point_vy default_vehicle s c) / patch_speed default_vehicle s u c) * match c with fl | rl => 1 | fr | rr => -1 end)
          (patch_speed default_vehicle s u c) 0) as (fx & fy & mx & my & mz & k1 & k2 & k3 & k4 & k5 & E & _).
        -- unfold inputs. repeat split; reflexivity.
        -- unfold in_range. lra.
        -- rewrite E. eexists. reflexivity.
    + split; [lra | apply along_road_nz; assumption].
Qed.
(** With Perantoni's tires the same up to 10 g. *)
Theorem C70_default_perantoni : forall s u n eta k, in_bounds s u eta -> Rabs (vy s) < vx s -> 2 * Rabs (yaw_rate s) <= vx s -> Rabs (ax_in u) <= 100 -> Rabs (ay_in u) <= 100 -> n * k < 1 ->
  exists l, ck_on_track default_vehicle (ck_const_aero (6 / 10) (19 / 10)) (ck_perantoni_tire default_tire) s u n eta k = Some l.
Proof.
  intros s u n eta k [B1 B2 B3 B4 B5 B6 B7 B8] HY HW HA HB HK.
  apply (fun XA XT => proj2 (proj1 (C70_on_track default_vehicle s u _ (ck_perantoni_tire default_tire) (fun _ _ _ => (6 / 10, 19 / 10)) (fun c Fz kappa alpha v g => let f := perantoni default_tire Fz kappa alpha v g in (Fx f, Fy f)) n eta k XA XT))).
  - intros a b c C E. injection E as <-. reflexivity.
  - intros c a1 a2 a3 a4 a5 F Q. unfold ck_perantoni_tire in Q. apply obind_some in Q. destruct Q as (f & Q & E). apply ck_perantoni_some in Q. destruct Q as [_ ->]. apply some_inj in E. symmetry. exact (eq_sym E).
  - split.
    + split; [split; cbn [default_vehicle cog_to_fa cog_to_ra track_front track_rear vehicle_mass Iz wheel_inertia]; lra | lra | pose proof (B5 rl); pose proof (B5 rr); lra | |].
      * intros c. pose proof (patch_default s u c B8 ltac:(lra) (conj HY HW)). lra.
      * eexists. split; [reflexivity|]. intros c. unfold tire_arguments. cbv zeta. cbn [snd].
        pose proof (load_default s u c 100 B2 B3 HA HB) as L. cbv zeta in L. set (Fz := static_load _ _ _ _) in *. unfold ck_perantoni_tire.
        match goal with |- exists F, obind (ck_perantoni _ _ ?a ?b ?v ?g) _ = _ => destruct (proj2 (proj1 (C70_tire default_tire Fz a b v g))) as [f E] end; [apply default_tire_defined; lra|]. rewrite E. eexists. reflexivity.
    + split; [lra | apply along_road_nz; assumption].
Qed.

(** The bounds alone do not keep the optimizer inside: there are points within them where the car does not move along the road, where a front wheel's contact patch stands, and,
    as nothing bounds the assumed accelerations, in plain driving where a wheel carries no load (MF52) or the load of a vanishing peak slip angle (Perantoni). *)
Definition sliding : vstates := {| vx := 8; vy := 8; yaw_rate := 0; wheel_speed := fun _ => 24 |}.
Definition spinning : vstates := {| vx := 5; vy := 10; yaw_rate := 400 / 91; wheel_speed := fun _ => 15 |}.
Definition driving : vstates := {| vx := 50; vy := 0; yaw_rate := 0; wheel_speed := fun _ => 150 |}.
Definition controls (st ay : R) : vinputs := {| throttle := 1 / 2; brake := 0; steer := st; ax_in := 0; ay_in := ay |}.
Theorem C70_bounds_refuted :
  (in_bounds sliding (controls 0 0) (PI / 4) /\ forall p aero tire n k, ck_on_track p aero tire sliding (controls 0 0) n (PI / 4) k = None) /\
  (exists st, in_bounds spinning (controls st 0) 0 /\ forall aero tire, ck_vehicle default_vehicle aero tire spinning (controls st 0) = None) /\
  (exists ay, in_bounds driving (controls 0 ay) 0 /\ Rabs ay <= 30 /\ forall opt_mode, ck_vehicle default_vehicle (ck_const_aero (6 / 10) (19 / 10)) (ck_mf_tire opt_mode mf_default) driving (controls 0 ay) = None) /\
  (exists ay, in_bounds driving (controls 0 ay) 0 /\ Rabs ay <= 180 /\ ck_vehicle default_vehicle (ck_const_aero (6 / 10) (19 / 10)) (ck_perantoni_tire default_tire) driving (controls 0 ay) = None).
Proof.
  pose proof PI_RGT_0 as P0. pose proof PI_4 as P4. assert (P3 : 3 < PI) by (pose proof PI2_3_2 as Q; unfold PI2 in Q; lra).
  assert (DF : forall (p : vparams) aero tire s u r, ck_vehicle p aero tire s u = Some r -> car_defined p aero tire s u).
  { intros p aero tire s u r E.
    pose (aero' := fun a b c => match aero a b c with Some C => C | None => (0, 0) end). pose (tire' := fun c a1 a2 a3 a4 a5 => match tire c a1 a2 a3 a4 a5 with Some F => F | None => (0, 0) end).
    apply (ck_vehicle_fwd p s u aero tire aero' tire') with (r := r); [| | exact E].
    - intros a b c C Q. unfold aero'. rewrite Q. reflexivity.
    - intros c a1 a2 a3 a4 a5 F Q. unfold tire'. rewrite Q. reflexivity. }
  split; [|split; [|split]].
  - split; [split; cbn [sliding controls vx vy yaw_rate wheel_speed throttle brake steer]; intros; lra|].
    intros p aero tire n k. unfold ck_on_track. destruct (ck_vehicle p aero tire sliding (controls 0 0)) as [r|]; [|reflexivity]. cbn [obind].
    destruct (ck_kinematics n (PI / 4) (vx sliding) (vy sliding) (yaw_rate sliding) k) as [t|] eqn:E; [|reflexivity]. exfalso.
    apply ck_kinematics_some in E. destruct E as [[_ N] _]. apply N. cbn [sliding vx vy]. rewrite sin_PI4, cos_PI4. reflexivity.
  - exists (- atan (1 / 10) / (PI / 18)). 
    pose proof (PacProps4.atan_le (1 / 10) ltac:(lra)) as AT.
    split.
    + split; cbn [spinning controls vx vy yaw_rate wheel_speed throttle brake steer]; intros; try lra.
      assert (Q : - atan (1 / 10) / (PI / 18) * (PI / 18) = - atan (1 / 10)) by (field; lra). set (st := - atan (1 / 10) / (PI / 18)) in *. clearbody st. split; nra.
    + intros aero tire. match goal with |- ?x = None => destruct x as [r|] eqn:E; [exfalso|reflexivity] end. apply DF in E. destruct E as [_ _ _ NP _]. apply (NP fl).
      unfold patch_speed, along, wheel_angle, point_vx, point_vy, px, py. cbn [default_vehicle controls spinning steer max_steer_angle track_front cog_to_fa vx vy yaw_rate].
      replace (- atan (1 / 10) / (PI / 18) * (PI / 18)) with (- atan (1 / 10)) by (field; lra). rewrite cos_neg, sin_neg.
      assert (C : 0 < cos (atan (1 / 10))) by (pose proof (atan_bound (1 / 10)); apply cos_gt_0; lra).
      assert (T : sin (atan (1 / 10)) = 1 / 10 * cos (atan (1 / 10))).
      { pose proof (tan_atan (1 / 10)) as T. unfold tan in T. apply (Rmult_eq_compat_r (cos (atan (1 / 10)))) in T. unfold Rdiv at 1 in T. rewrite Rmult_assoc, Rinv_l, Rmult_1_r in T by lra. exact T. }
      rewrite T. lra.
  - exists (5127 * 146 / 27000). split; [split; cbn [driving controls vx vy yaw_rate wheel_speed throttle brake steer]; intros; lra|]. split; [apply Rabs_le; lra|].
    intros opt_mode. match goal with |- ?x = None => destruct x as [r|] eqn:E; [exfalso|reflexivity] end. apply DF in E. destruct E as [_ _ _ _ (C & EC & TT)].
    apply some_inj in EC. subst C. specialize (TT fl). unfold tire_arguments in TT. cbv zeta in TT. cbn [snd] in TT. destruct TT as [F TT].
    assert (L : static_load default_vehicle (19 / 10 * qdyn default_vehicle driving) (controls 0 (5127 * 146 / 27000)) fl = 0).
    { unfold static_load, qdyn, default_vehicle, driving, controls. cbn [vehicle_mass gravity cog_to_fa cog_to_ra cog_height mech_balance track_front track_rear air_density vx vy ax_in ay_in]. lra. }
    rewrite L in TT. unfold ck_mf_tire in TT. match type of TT with match mf_forward opt_mode mf_default ?ii with _ => _ end = _ => set (inputs := ii) in TT; destruct (mf_forward opt_mode mf_default inputs) as [out|e] eqn:EM; [|discriminate] end.
    assert (HI : exists ka al v g, mf_inputs inputs 0 ka al v g) by (do 4 eexists; unfold inputs; repeat split; reflexivity). destruct HI as (ka & al & v & g & HI).
    destruct (C55_zero_load_refuted opt_mode mf_default dp inputs ka al v g out (dp_given opt_mode) HI EM) as [E1 _]. rewrite E1 in TT. discriminate.
  - exists (- (32873 * 146 / 27000)). split; [split; cbn [driving controls vx vy yaw_rate wheel_speed throttle brake steer]; intros; lra|]. split; [apply Rabs_le; lra|].
    match goal with |- ?x = None => destruct x as [r|] eqn:E; [exfalso|reflexivity] end. apply DF in E. destruct E as [_ _ _ _ (C & EC & TT)].
    apply some_inj in EC. subst C. specialize (TT fl). unfold tire_arguments in TT. cbv zeta in TT. cbn [snd] in TT. destruct TT as [F TT].
    assert (L : static_load default_vehicle (19 / 10 * qdyn default_vehicle driving) (controls 0 (- (32873 * 146 / 27000))) fl = 38000).
    { unfold static_load, qdyn, default_vehicle, driving, controls. cbn [vehicle_mass gravity cog_to_fa cog_to_ra cog_height mech_balance track_front track_rear air_density vx vy ax_in ay_in]. lra. }
    rewrite L in TT. unfold ck_perantoni_tire in TT. apply obind_some in TT. destruct TT as (f & TT & _). apply ck_perantoni_some in TT. destruct TT as [TD _].
    apply default_tire_defined in TD. destruct TD as [TD _]. apply TD. reflexivity.
Qed.

Example C70_nonvacuous :
  (in_bounds driving (controls 0 5) 0 /\ Rabs (vy driving) < vx driving /\ 2 * Rabs (yaw_rate driving) <= vx driving /\ Rabs (ax_in (controls 0 5)) <= 15 /\ Rabs (ay_in (controls 0 5)) <= 15 /\ 1 * (1 / 100) < 1) /\
  (exists l, ck_on_track default_vehicle (ck_const_aero (6 / 10) (19 / 10)) (ck_mf_tire true mf_default) driving (controls 0 5) 1 0 (1 / 100) = Some l /\ exists tl, l = (99 / 5000) :: tl) /\
  on_road 1 0 50 0 (1 / 100) /\ tire_defined default_tire 4000 /\ ~ tire_defined default_tire 38000.
Proof.
  pose proof PI_RGT_0 as P0. pose proof PI_4 as P4. assert (P3 : 3 < PI) by (pose proof PI2_3_2 as Q; unfold PI2 in Q; lra).
  assert (H : in_bounds driving (controls 0 5) 0 /\ Rabs (vy driving) < vx driving /\ 2 * Rabs (yaw_rate driving) <= vx driving /\ Rabs (ax_in (controls 0 5)) <= 15 /\ Rabs (ay_in (controls 0 5)) <= 15 /\ 1 * (1 / 100) < 1).
  { cbn [driving controls vx vy yaw_rate ax_in ay_in]. rewrite Rabs_R0. rewrite Rabs_pos_eq by lra. split; [|lra].
    split; cbn [driving controls vx vy yaw_rate wheel_speed throttle brake steer]; intros; lra. }
  split; [exact H|]. split; [|split; [|split]].
  - destruct H as (H1 & H2 & H3 & H4 & H5 & H6). destruct (C70_default true driving (controls 0 5) 1 0 (1 / 100) H1 H2 H3 H4 H5 H6) as [l E]. exists l. split; [exact E|].
    unfold ck_on_track in E. apply obind_some in E. destruct E as (r & _ & E). apply obind_some in E. destruct E as (t & E2 & E). apply ck_kinematics_some in E2. destruct E2 as [_ ->].
    cbv zeta in E. cbn [fst snd app] in E. apply some_inj in E. subst l. eexists. apply f_equal2; [|reflexivity]. cbn [driving vx vy]. rewrite cos_0, sin_0. field.
  - unfold on_road. rewrite cos_0, sin_0. lra.
  - apply default_tire_defined. lra.
  - intros D. apply default_tire_defined in D. lra.
Qed.
Print Assumptions C70_tire.
Print Assumptions C70_default_tire.
Print Assumptions C70_kinematics.
Print Assumptions C70_vehicle.
Print Assumptions C70_on_track.
Print Assumptions C70_standstill_refuted.
Print Assumptions C70_default.
Print Assumptions C70_default_perantoni.
Print Assumptions C70_bounds_refuted.
