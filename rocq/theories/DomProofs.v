From Verif Require Import Base RBase VehModel VehSpec TireModel PacModel DomModel DomSpec.
From Coq Require Import Lra.
Open Scope R_scope.

Lemma odiv_some : forall a b c, odiv a b = Some c <-> b <> 0 /\ c = a / b.
Proof. intros a b c. unfold odiv. destruct (Req_EM_T b 0) as [E|E]; split; intros H; try discriminate; [destruct H; contradiction| injection H as <-; auto | destruct H as [_ ->]; reflexivity]. Qed.
Lemma odiv_nz : forall a b, b <> 0 -> odiv a b = Some (a / b).
Proof. intros a b H. apply odiv_some. auto. Qed.
Lemma obind_some : forall A B (x : option A) (f : A -> option B) y, obind x f = Some y <-> exists a, x = Some a /\ f a = Some y.
Proof. intros A B [a|] f y; cbn; split; intros H; [eauto | destruct H as (b & E & H); injection E as <-; exact H | discriminate | destruct H as (b & E & _); discriminate]. Qed.
Lemma atan_nz : forall q, atan q <> 0 <-> q <> 0.
Proof. intros q. split; intros H E; apply H; [rewrite E; apply atan_0|]. rewrite <- (tan_atan q), E. apply tan_0. Qed.

(** ** Perantoni's tire *)
Lemma interp_nz : forall f1 f2 a b Fz, f2 - f1 <> 0 -> ((Fz - f1) / (f2 - f1) * (b - a) + a <> 0 <-> a * (f2 - Fz) <> b * (f1 - Fz)).
Proof.
  intros f1 f2 a b Fz H. assert (E : (Fz - f1) / (f2 - f1) * (b - a) + a = (a * (f2 - Fz) - b * (f1 - Fz)) / (f2 - f1)) by (field; exact H).
  rewrite E. split; intros K L; apply K.
  - rewrite L. unfold Rdiv. replace (b * (f1 - Fz) - b * (f1 - Fz)) with 0 by ring. ring.
  - apply Rminus_diag_uniq. apply (Rmult_eq_compat_r (f2 - f1)) in L. unfold Rdiv in L. rewrite Rmult_assoc, Rinv_l, Rmult_1_r, Rmult_0_l in L by exact H. exact L.
Qed.
Lemma rho_pos : forall a k, 0 < a ^ 2 + k ^ 2 + jitter.
Proof. intros a k. unfold jitter. nra. Qed.
Lemma ck_perantoni_some : forall t Fz kappa alpha vx gamma f, ck_perantoni t Fz kappa alpha vx gamma = Some f <-> tire_defined t Fz /\ f = perantoni t Fz kappa alpha vx gamma.
Proof.
  intros t Fz kappa alpha vx gamma f. unfold ck_perantoni. split.
  - intros H. apply obind_some in H. destruct H as (iv & E & H). apply odiv_some in E. destruct E as [N1 ->].
    apply obind_some in H. destruct H as (kn & E & H). apply odiv_some in E. destruct E as [N2 ->].
    apply obind_some in H. destruct H as (an & E & H). apply odiv_some in E. destruct E as [N3 ->].
    apply obind_some in H. destruct H as (r & E & H). unfold osqrt in E. destruct (Rlt_dec _ 0) as [|_]; [discriminate|]. injection E as <-.
    apply obind_some in H. destruct H as (sx & E & H). apply odiv_some in E. destruct E as [N4 ->].
    apply obind_some in H. destruct H as (sy & E & H). apply odiv_some in E. destruct E as [N5 ->].
    apply obind_some in H. destruct H as (fx & E & H). apply odiv_some in E. destruct E as [N6 ->].
    apply obind_some in H. destruct H as (fy & E & H). apply odiv_some in E. destruct E as [N7 ->].
    injection H as <-. split; [|reflexivity]. split; try (apply atan_nz; assumption); try (apply (interp_nz _ _ _ _ _ N1); assumption). intros E. apply N1. rewrite E. ring.
  - intros [[D1 D2 D3 D4 D5] ->]. assert (N1 : Fz2 t - Fz1 t <> 0) by (intros E; apply D1; symmetry; apply Rminus_diag_uniq; exact E).
    rewrite odiv_nz by exact N1. cbn [obind]. rewrite odiv_nz by (apply interp_nz; assumption). cbn [obind]. rewrite odiv_nz by (apply interp_nz; assumption). cbn [obind].
    unfold osqrt. match goal with |- context [Rlt_dec ?x 0] => pose proof (rho_pos ((alpha / ((Fz - Fz1 t) / (Fz2 t - Fz1 t) * (alpha2 t - alpha1 t) + alpha1 t))) (kappa / ((Fz - Fz1 t) / (Fz2 t - Fz1 t) * (kappa2 t - kappa1 t) + kappa1 t))) as P; destruct (Rlt_dec x 0) as [C|_]; [exfalso; lra|] end.
    cbn [obind]. apply sqrt_lt_R0 in P. rewrite !odiv_nz by (try (apply atan_nz; assumption); try lra). cbn [obind]. rewrite !odiv_nz by (try (apply atan_nz; assumption); try lra). cbn [obind].
    reflexivity.
Qed.

(** ** Kinematics *)
Lemma ck_kinematics_some : forall n eta vx vy w k t, ck_kinematics n eta vx vy w k = Some t <->
  on_road n eta vx vy k /\ t = (let v := (vx * cos eta - vy * sin eta) / (1 - n * k) in (1 / v, (vx * sin eta + vy * cos eta) / v, (w - k * v) / v)).
Proof.
  intros n eta vx vy w k t. unfold ck_kinematics, on_road. split.
  - intros H. apply obind_some in H. destruct H as (v & E & H). apply odiv_some in E. destruct E as [N1 ->].
    apply obind_some in H. destruct H as (a & E & H). apply odiv_some in E. destruct E as [N2 ->].
    apply obind_some in H. destruct H as (b & E & H). apply odiv_some in E. destruct E as [_ ->].
    apply obind_some in H. destruct H as (c & E & H). apply odiv_some in E. destruct E as [_ ->]. injection H as <-. split; [|reflexivity].
    split; [intros E; apply N1; lra|]. intros E. apply N2. rewrite E. unfold Rdiv. ring.
  - intros [[N1 N2] ->]. rewrite odiv_nz by lra. cbn [obind].
    assert (N : (vx * cos eta - vy * sin eta) / (1 - n * k) <> 0).
    { intros E. apply N2. apply Rminus_diag_uniq. apply (Rmult_eq_compat_r (1 - n * k)) in E. unfold Rdiv in E. rewrite Rmult_assoc, Rinv_l, Rmult_1_r, Rmult_0_l in E by lra. exact E. }
    rewrite !odiv_nz by exact N. reflexivity.
Qed.

Lemma some_inj : forall A (a b : A), Some a = Some b -> a = b.
Proof. congruence. Qed.
(** ** The vehicle *)
Section VehP.
Variables (p : vparams) (s : vstates) (u : vinputs).
Lemma wheel_X : forall c, X (f_vel_wheel p s u c) = patch_speed p s u c.
Proof. intros []; unfold f_vel_wheel, rotate_z, f_vel_body, vplus, cross, f_pos, patch_speed, along, wheel_angle, f_wheel_angle, f_steer, point_vx, point_vy, px, py, X, Y, Z; cbn [fst snd]; unfold Rdiv; ring. Qed.
Lemma wheel_Y : forall c, Y (f_vel_wheel p s u c) = across (wheel_angle p u c) (point_vx p s c) (point_vy p s c).
Proof. intros []; unfold f_vel_wheel, rotate_z, f_vel_body, vplus, cross, f_pos, across, wheel_angle, f_wheel_angle, f_steer, point_vx, point_vy, px, py, X, Y, Z; cbn [fst snd]; unfold Rdiv; ring. Qed.
Lemma load_static : forall (aero : aero_model) c, sane p -> f_wheel_load p aero s u c = static_load p (snd (aero (vx s) (vy s) (yaw_rate s)) * qdyn p s) u c.
Proof.
  intros aero c [N1 N2 N3 _ _ _]. unfold f_wheel_load, static_load, f_lat_front, f_lat_rear, f_long, f_pitch_moment, f_roll_moment, f_wdf, f_Fz_total, f_aero, qdyn.
  destruct c; field; repeat split; assumption.
Qed.

Lemma ck_corner_some : forall (tire : corner -> R -> R -> R -> R -> R -> option (R * R)) load c k, ck_corner p tire s u load c = Some k <->
  vx s <> 0 /\ patch_speed p s u c <> 0 /\ exists F, tire c (load c) (f_kappa p s c) (f_alpha p s u c * mirror c) (X (f_vel_wheel p s u c)) (0 * mirror c) = Some F /\
    k = (f_kappa p s c, f_alpha p s u c, (fst F, snd F * mirror c, load c)).
Proof.
  intros tire load c k. unfold ck_corner. split.
  - intros H. apply obind_some in H. destruct H as (a & E & H). apply odiv_some in E. destruct E as [N1 ->].
    apply obind_some in H. destruct H as (q & E & H). apply odiv_some in E. destruct E as [N2 ->].
    apply obind_some in H. destruct H as (F & E & H). injection H as <-. split; [exact N1|]. split; [rewrite <- wheel_X; exact N2|]. exists F. split; [exact E|reflexivity].
  - intros (N1 & N2 & F & E & ->). rewrite odiv_nz by exact N1. cbn [obind]. rewrite odiv_nz by (rewrite wheel_X; exact N2). cbn [obind].
    change (- (1 - rolling_radius p * wheel_speed s c / vx s)) with (f_kappa p s c). change (atan (Y (f_vel_wheel p s u c) / X (f_vel_wheel p s u c))) with (f_alpha p s u c).
    rewrite E. reflexivity.
Qed.
Lemma mirror_side : forall c, mirror c = match c with fl | rl => 1 | fr | rr => -1 end.
Proof. intros []; reflexivity. Qed.
Lemma tire_arguments_ck : forall (aero : aero_model) c (f : R -> R -> R -> R -> R -> Prop), sane p ->
  (tire_arguments p (snd (aero (vx s) (vy s) (yaw_rate s)) * qdyn p s) s u c f <-> f (f_wheel_load p aero s u c) (f_kappa p s c) (f_alpha p s u c * mirror c) (X (f_vel_wheel p s u c)) (0 * mirror c)).
Proof.
  intros aero c f SN. unfold tire_arguments. rewrite (load_static aero c SN). unfold f_alpha. rewrite wheel_X, wheel_Y, mirror_side. unfold f_kappa.
  replace (rolling_radius p * wheel_speed s c / vx s - 1) with (- (1 - rolling_radius p * wheel_speed s c / vx s)) by ring.
  replace (0 * match c with fl | rl => 1 | fr | rr => -1 end) with 0 by ring. reflexivity.
Qed.

Variables (aero : R -> R -> R -> option (R * R)) (tire : corner -> R -> R -> R -> R -> R -> option (R * R)) (aero' : aero_model) (tire' : corner -> tire_model).
Hypothesis XA : forall a b c C, aero a b c = Some C -> aero' a b c = C.
Hypothesis XT : forall c Fz kappa alpha v g F, tire c Fz kappa alpha v g = Some F -> tire' c Fz kappa alpha v g = F.
Let r' := vehicle_forward p aero' tire' s u.

Lemma ck_vehicle_fwd : forall r, ck_vehicle p aero tire s u = Some r -> car_defined p aero tire s u /\ same_return r r'.
Proof.
  intros r H. unfold ck_vehicle in H.
  apply obind_some in H. destruct H as (drl & E & H). apply odiv_some in E. destruct E as [NR ->].
  apply obind_some in H. destruct H as (C & EA & H). pose proof (XA _ _ _ _ EA) as EA'.
  apply obind_some in H. destruct H as (lf & E & H). apply odiv_some in E. destruct E as [NTF ->].
  apply obind_some in H. destruct H as (lr & E & H). apply odiv_some in E. destruct E as [NTR ->].
  apply obind_some in H. destruct H as (pm & E & H). apply odiv_some in E. destruct E as [NW ->].
  apply obind_some in H. destruct H as (lg & E & H). apply odiv_some in E. destruct E as [_ ->].
  apply obind_some in H. destruct H as (wd & E & H). apply odiv_some in E. destruct E as [_ ->].
  set (load := by_corner _ _ _ _) in H.
  assert (LD : forall c, load c = f_wheel_load p aero' s u c).
  { intros []; unfold load, by_corner, f_wheel_load, f_wdf, f_long, f_lat_front, f_lat_rear, f_roll_moment, f_pitch_moment, f_Fz_total, f_aero; rewrite EA'; reflexivity. }
  apply obind_some in H. destruct H as (kfl & E1 & H). apply ck_corner_some in E1. destruct E1 as (NV & P1 & F1 & T1 & ->).
  apply obind_some in H. destruct H as (kfr & E2 & H). apply ck_corner_some in E2. destruct E2 as (_ & P2 & F2 & T2 & ->).
  apply obind_some in H. destruct H as (krl & E3 & H). apply ck_corner_some in E3. destruct E3 as (_ & P3 & F3 & T3 & ->).
  apply obind_some in H. destruct H as (krr & E4 & H). apply ck_corner_some in E4. destruct E4 as (_ & P4 & F4 & T4 & ->).
  set (oc := by_corner (f_kappa p s fl, _, _) _ _ _) in H. rewrite LD in T1, T2, T3, T4.
  assert (FW : forall c, snd (oc c) = f_force_wheel p aero' tire' s u c).
  { intros c. unfold f_force_wheel, f_tire. destruct c; unfold oc, by_corner; cbn [snd]; rewrite LD; [rewrite (XT _ _ _ _ _ _ _ T1) | rewrite (XT _ _ _ _ _ _ _ T2) | rewrite (XT _ _ _ _ _ _ _ T3) | rewrite (XT _ _ _ _ _ _ _ T4)]; reflexivity. }
  assert (KA : forall c, fst (fst (oc c)) = f_kappa p s c /\ snd (fst (oc c)) = f_alpha p s u c) by (intros []; split; reflexivity).
  set (bf := fun c : corner => rotate_z _ _) in H.
  assert (BF : forall c, bf c = f_force_body p aero' tire' s u c) by (intros c; unfold bf, f_force_body; rewrite FW; f_equal; destruct c; reflexivity).
  set (force := vplus _ _) in H.
  assert (FO : force = f_total_force p aero' tire' s u) by (unfold force, f_total_force, sum4; rewrite !BF; unfold f_drag, f_aero; rewrite EA'; reflexivity).
  set (mo := sum4 _) in H.
  assert (MO : mo = f_total_moment p aero' tire' s u) by (transitivity (sum4 (fun c => cross (f_pos p c) (bf c))); [reflexivity | unfold f_total_moment, sum4, f_moment_body; rewrite !BF; reflexivity]).
  apply obind_some in H. destruct H as (ax & E & H). apply odiv_some in E. destruct E as [NM ->].
  apply obind_some in H. destruct H as (ay & E & H). apply odiv_some in E. destruct E as [_ ->].
  apply obind_some in H. destruct H as (ya & E & H). apply odiv_some in E. destruct E as [NI ->].
  apply obind_some in H. destruct H as (w1 & E & H). apply odiv_some in E. destruct E as [NJ ->].
  apply obind_some in H. destruct H as (w2 & E & H). apply odiv_some in E. destruct E as [_ ->].
  apply obind_some in H. destruct H as (w3 & E & H). apply odiv_some in E. destruct E as [_ ->].
  apply obind_some in H. destruct H as (w4 & E & H). apply odiv_some in E. destruct E as [_ ->].
  apply some_inj in H. rewrite <- H. clear H. rewrite !FO, !MO, !FW.
  assert (SN : sane p) by (split; assumption).
  split.
  - split; [exact SN | exact NV | intros E; apply NR; rewrite E; ring | intros []; assumption |].
    exists C. split; [exact EA|]. intros c. rewrite <- EA'. apply tire_arguments_ck; [exact SN|]. destruct c; eexists; eassumption.
  - unfold r'. split; cbn [d_vx d_vy d_yaw_rate d_wheel_speed o_ax o_ay o_drive_torque_rl o_drive_torque_rr o_F o_slip_ratio o_slip_angle o_res_ax o_res_ay vehicle_forward];
      try reflexivity; try (intros c; apply KA); try (intros []; reflexivity); exact BF.
Qed.
Lemma ck_vehicle_back : car_defined p aero tire s u -> exists r, ck_vehicle p aero tire s u = Some r.
Proof.
  intros [SN NV NR NP (C & EA & TT)]. pose proof (XA _ _ _ _ EA) as EA'.
  assert (T : forall c, exists F, tire c (f_wheel_load p aero' s u c) (f_kappa p s c) (f_alpha p s u c * mirror c) (X (f_vel_wheel p s u c)) (0 * mirror c) = Some F).
  { intros c. specialize (TT c). rewrite <- EA' in TT. apply (tire_arguments_ck aero' c _ SN) in TT. exact TT. }
  destruct (T fl) as (F1 & T1). destruct (T fr) as (F2 & T2). destruct (T rl) as (F3 & T3). destruct (T rr) as (F4 & T4). clear T TT.
  pose proof SN as [N1 N2 N3 N4 N5 N6]. unfold ck_vehicle.
  rewrite odiv_nz by (intros E; apply NR; lra). cbn [obind]. rewrite EA. cbn [obind].
  rewrite odiv_nz by exact N2. cbn [obind]. rewrite odiv_nz by exact N3. cbn [obind]. rewrite odiv_nz by exact N1. cbn [obind]. rewrite odiv_nz by lra. cbn [obind]. rewrite odiv_nz by exact N1. cbn [obind].
  set (load := by_corner _ _ _ _).
  assert (LD : forall c, load c = f_wheel_load p aero' s u c).
  { intros []; unfold load, by_corner, f_wheel_load, f_wdf, f_long, f_lat_front, f_lat_rear, f_roll_moment, f_pitch_moment, f_Fz_total, f_aero; rewrite EA'; reflexivity. }
  assert (K : forall c F, tire c (f_wheel_load p aero' s u c) (f_kappa p s c) (f_alpha p s u c * mirror c) (X (f_vel_wheel p s u c)) (0 * mirror c) = Some F ->
    ck_corner p tire s u load c = Some (f_kappa p s c, f_alpha p s u c, (fst F, snd F * mirror c, load c))).
  { intros c F E. apply ck_corner_some. split; [exact NV|]. split; [apply NP|]. exists F. split; [rewrite LD; exact E|reflexivity]. }
  rewrite (K _ _ T1). cbn [obind]. rewrite (K _ _ T2). cbn [obind]. rewrite (K _ _ T3). cbn [obind]. rewrite (K _ _ T4). cbn [obind]. clear K.
  rewrite !(odiv_nz _ (vehicle_mass p)) by exact N4. cbn [obind].
  rewrite !(odiv_nz _ (Iz p)) by exact N5. cbn [obind]. repeat (rewrite !(odiv_nz _ (wheel_inertia p)) by exact N6; cbn [obind]). eexists. reflexivity.
Qed.
End VehP.
