(** C46: the Perantoni tire. *)
From Verif Require Import Base RBase TireModel.
From Coq Require Import Lra Lia.

(** the line through the two reference loads *)
Definition on_line (f1 f2 a b f v : R) : Prop := v * (f2 - f1) = a * (f2 - f) + b * (f - f1).
(** a tire whose parameters make sense at a load: different reference loads, positive peak friction and peak slips, shape factors in (0, 2] *)
Definition sane (p : tparams) (Fz : R) : Prop := Fz1 p <> Fz2 p /\ 0 < Fz /\ 0 < mux_max p Fz /\ 0 < muy_max p Fz /\ 0 < kappa_max p Fz /\ 0 < alpha_max p Fz /\ 0 < Qx p <= 2 /\ 0 < Qy p <= 2.

Lemma rho_pos : forall a k, 0 < rho a k.
Proof. intros a k. unfold rho. apply sqrt_lt_R0. pose proof (pow2_ge_0 a). pose proof (pow2_ge_0 k). unfold jitter. lra. Qed.
Lemma rho_sq : forall a k, rho a k * rho a k = a ^ 2 + k ^ 2 + jitter.
Proof. intros a k. unfold rho. apply sqrt_sqrt. pose proof (pow2_ge_0 a). pose proof (pow2_ge_0 k). unfold jitter. lra. Qed.
Lemma shape_le1 : forall Q r, -1 <= shape Q r <= 1.
Proof. intros Q r. unfold shape. apply SIN_bound. Qed.
Lemma atan_pos : forall u, 0 < u -> 0 < atan u.
Proof. intros u H. rewrite <- atan_0. now apply atan_increasing. Qed.
Lemma shape_pos : forall Q r, 0 < Q <= 2 -> 0 < r -> 0 < shape Q r.
Proof.
  intros Q r [Q0 Q2] Hr. unfold shape. pose proof PI_RGT_0 as P. pose proof (atan_pos Q Q0) as AQ. assert (0 < PI / 2 / atan Q * r) as S by (apply Rmult_lt_0_compat; [|exact Hr]; apply Rdiv_lt_0_compat; lra). cbv zeta.
  pose proof (atan_pos _ S) as A0. destruct (atan_bound (PI / 2 / atan Q * r)) as [_ A1]. apply sin_gt_0; [now apply Rmult_lt_0_compat|]. assert (Q * atan (PI / 2 / atan Q * r) <= 2 * atan (PI / 2 / atan Q * r)) by (apply Rmult_le_compat_r; lra). lra.
Qed.

(** Peak friction and peak slip are linear in the load through their values at the two reference loads. *)
Theorem C46_load : forall p Fz, Fz1 p <> Fz2 p -> on_line (Fz1 p) (Fz2 p) (mux1 p) (mux2 p) Fz (mux_max p Fz) /\ on_line (Fz1 p) (Fz2 p) (muy1 p) (muy2 p) Fz (muy_max p Fz) /\
  on_line (Fz1 p) (Fz2 p) (kappa1 p) (kappa2 p) Fz (kappa_max p Fz) /\ on_line (Fz1 p) (Fz2 p) (alpha1 p) (alpha2 p) Fz (alpha_max p Fz).
Proof. intros p Fz N. unfold on_line, mux_max, muy_max, kappa_max, alpha_max, load_interp. assert (Fz2 p - Fz1 p <> 0) by lra. repeat split; field; assumption. Qed.
Print Assumptions C46_load.

(** The tire forces stay strictly inside the friction ellipse, whatever the slips and the shape factors. *)
Theorem C46_friction_ellipse : forall p Fz kappa alpha vx gamma, Fz <> 0 -> mux_max p Fz <> 0 -> muy_max p Fz <> 0 ->
  let f := perantoni p Fz kappa alpha vx gamma in (Fx f / (mux_max p Fz * Fz)) ^ 2 + (Fy f / (muy_max p Fz * Fz)) ^ 2 < 1.
Proof.
  intros p Fz kappa alpha vx gamma HF Hx Hy. unfold perantoni. cbn [Fx Fy]. cbv zeta. set (k := kappa / kappa_max p Fz). set (a := alpha / alpha_max p Fz). pose proof (rho_pos a k) as R0. pose proof (rho_sq a k) as R2. set (r := rho a k) in *.
  pose proof (shape_le1 (Qx p) r) as S1. pose proof (shape_le1 (Qy p) r) as S2. set (sx := shape (Qx p) r) in *. set (sy := shape (Qy p) r) in *.
  replace (mux_max p Fz * sx * Fz * k / r / (mux_max p Fz * Fz)) with (sx * k / r) by (field; repeat split; lra || assumption). replace (- (muy_max p Fz * sy) * Fz * a / r / (muy_max p Fz * Fz)) with (- (sy * a / r)) by (field; repeat split; lra || assumption).
  replace ((sx * k / r) ^ 2 + (- (sy * a / r)) ^ 2) with ((sx ^ 2 * k ^ 2 + sy ^ 2 * a ^ 2) / (r * r)) by (field; lra). assert (0 < r * r) as RR by nra. apply (Rmult_lt_reg_r (r * r)); [exact RR|]. unfold Rdiv. rewrite Rmult_assoc, Rinv_l, Rmult_1_r, Rmult_1_l by lra. rewrite R2.
  assert (sx ^ 2 <= 1) by nra. assert (sy ^ 2 <= 1) by nra. pose proof (pow2_ge_0 k). pose proof (pow2_ge_0 a). unfold jitter. nra.
Qed.
Print Assumptions C46_friction_ellipse.

(** Signs (ISO): the longitudinal force has the sign of the slip ratio, the lateral force the opposite sign of the slip angle; no moments. *)
Theorem C46_signs : forall p Fz kappa alpha vx gamma, sane p Fz -> let f := perantoni p Fz kappa alpha vx gamma in
  (0 < kappa -> 0 < Fx f) /\ (kappa < 0 -> Fx f < 0) /\ (kappa = 0 -> Fx f = 0) /\ (0 < alpha -> Fy f < 0) /\ (alpha < 0 -> 0 < Fy f) /\ (alpha = 0 -> Fy f = 0) /\ Mx f = 0 /\ My f = 0 /\ Mz f = 0.
Proof.
  intros p Fz kappa alpha vx gamma (_ & HF & Hmx & Hmy & Hk & Ha & Qx0 & Qy0). unfold perantoni. cbn [Fx Fy Mx My Mz]. cbv zeta. set (k := kappa / kappa_max p Fz). set (a := alpha / alpha_max p Fz). pose proof (rho_pos a k) as R0. set (r := rho a k) in *.
  pose proof (shape_pos (Qx p) r Qx0 R0) as S1. pose proof (shape_pos (Qy p) r Qy0 R0) as S2. set (sx := shape (Qx p) r) in *. set (sy := shape (Qy p) r) in *.
  assert (0 < mux_max p Fz * sx * Fz / (r * kappa_max p Fz)) as CX by (apply Rdiv_lt_0_compat; repeat apply Rmult_lt_0_compat; assumption). assert (0 < muy_max p Fz * sy * Fz / (r * alpha_max p Fz)) as CY by (apply Rdiv_lt_0_compat; repeat apply Rmult_lt_0_compat; assumption).
  replace (mux_max p Fz * sx * Fz * k / r) with (mux_max p Fz * sx * Fz / (r * kappa_max p Fz) * kappa) by (unfold k; field; lra). replace (- (muy_max p Fz * sy) * Fz * a / r) with (- (muy_max p Fz * sy * Fz / (r * alpha_max p Fz) * alpha)) by (unfold a; field; lra).
  set (X := mux_max p Fz * sx * Fz / (r * kappa_max p Fz)) in *. set (Y := muy_max p Fz * sy * Fz / (r * alpha_max p Fz)) in *. repeat split; intros; subst; nra.
Qed.
Print Assumptions C46_signs.

(** Symmetry: reversing the slip ratio reverses Fx and keeps Fy; reversing the slip angle reverses Fy and keeps Fx.  Speed and camber do not matter. *)
Theorem C46_symmetry : forall p Fz kappa alpha vx gamma vx' gamma', let f := perantoni p Fz kappa alpha vx gamma in
  perantoni p Fz (- kappa) alpha vx' gamma' = {| Fx := - Fx f; Fy := Fy f; Mx := 0; My := 0; Mz := 0 |} /\ perantoni p Fz kappa (- alpha) vx' gamma' = {| Fx := Fx f; Fy := - Fy f; Mx := 0; My := 0; Mz := 0 |}.
Proof.
  intros p Fz kappa alpha vx gamma vx' gamma' f. unfold f, perantoni. cbn [Fx Fy]. cbv zeta. replace (- kappa / kappa_max p Fz) with (- (kappa / kappa_max p Fz)) by (unfold Rdiv; ring). replace (- alpha / alpha_max p Fz) with (- (alpha / alpha_max p Fz)) by (unfold Rdiv; ring).
  set (k := kappa / kappa_max p Fz). set (a := alpha / alpha_max p Fz). assert (rho a (- k) = rho a k) as -> by (unfold rho; f_equal; ring). assert (rho (- a) k = rho a k) as -> by (unfold rho; f_equal; ring). split; f_equal; unfold Rdiv; ring.
Qed.
Print Assumptions C46_symmetry.

(** The default parameters make sense up to 20.5 kN of load ... *)
Theorem C46_defaults : forall Fz, 0 < Fz <= 20500 -> sane default_tire Fz.
Proof. intros Fz H. pose proof PI_RGT_0. unfold sane, mux_max, muy_max, kappa_max, alpha_max, load_interp, default_tire. cbn. repeat split; try lra. replace ((Fz - 2000) / (6000 - 2000) * (8 * (PI / 180) - 9 * (PI / 180)) + 9 * (PI / 180)) with (PI / 180 * ((38000 - Fz) / 4000)) by field. apply Rmult_lt_0_compat; lra. Qed.
Print Assumptions C46_defaults.
(** ... but above 22.571 kN both peak friction coefficients are negative: the tire pushes the wrong way.  (The peak friction falls linearly with the load and is not bounded below.) *)
Theorem C46_overload_refuted : forall Fz kappa alpha vx gamma, 22572 <= Fz <= 30000 -> let f := perantoni default_tire Fz kappa alpha vx gamma in (0 < kappa -> Fx f < 0) /\ (0 < alpha -> 0 < Fy f).
Proof.
  intros Fz kappa alpha vx gamma H. pose proof PI_RGT_0. unfold perantoni. cbn [Fx Fy]. cbv zeta. assert (mux_max default_tire Fz < 0) as Hmx by (unfold mux_max, load_interp, default_tire; cbn; lra). assert (muy_max default_tire Fz < 0) as Hmy by (unfold muy_max, load_interp, default_tire; cbn; lra). assert (0 < kappa_max default_tire Fz) as Hk by (unfold kappa_max, load_interp, default_tire; cbn; lra).
  assert (0 < alpha_max default_tire Fz) as Ha. { unfold alpha_max, load_interp, default_tire; cbn. replace ((Fz - 2000) / (6000 - 2000) * (8 * (PI / 180) - 9 * (PI / 180)) + 9 * (PI / 180)) with (PI / 180 * ((38000 - Fz) / 4000)) by field. apply Rmult_lt_0_compat; lra. }
  set (k := kappa / kappa_max default_tire Fz). set (a := alpha / alpha_max default_tire Fz). pose proof (rho_pos a k) as R0. set (r := rho a k) in *.
  assert (0 < Qx default_tire <= 2) as Q1 by (cbn; lra). assert (0 < Qy default_tire <= 2) as Q2 by (cbn; lra). pose proof (shape_pos _ r Q1 R0) as S1. pose proof (shape_pos _ r Q2 R0) as S2. set (sx := shape (Qx default_tire) r) in *. set (sy := shape (Qy default_tire) r) in *. set (mx := mux_max default_tire Fz) in *. set (my := muy_max default_tire Fz) in *.
  split; intro Hp.
  - assert (0 < k) by (unfold k; now apply Rdiv_lt_0_compat). clearbody k sx mx. assert (0 < - mx * sx * Fz * k / r) as Q by (apply Rdiv_lt_0_compat; [|exact R0]; repeat apply Rmult_lt_0_compat; lra). replace (mx * sx * Fz * k / r) with (- (- mx * sx * Fz * k / r)) by (unfold Rdiv; ring). lra.
  - assert (0 < a) by (unfold a; now apply Rdiv_lt_0_compat). clearbody a sy my. assert (0 < - my * sy * Fz * a / r) as Q by (apply Rdiv_lt_0_compat; [|exact R0]; repeat apply Rmult_lt_0_compat; lra). replace (- (my * sy) * Fz * a / r) with (- my * sy * Fz * a / r) by (unfold Rdiv; ring). lra.
Qed.
Print Assumptions C46_overload_refuted.

(** ** where the friction peaks *)
Lemma atan_lt_id : forall u, 0 < u -> atan u < u.
Proof.
  intros u H. destruct (MVT_cor2 atan (fun c => / (1 + c ^ 2)) 0 u H) as (c & E & Hc).
  - intros c Hc. apply derivable_pt_lim_atan.
  - rewrite atan_0, !Rminus_0_r in E. rewrite E. assert (/ (1 + c ^ 2) < 1); [|nra]. rewrite <- Rinv_1. apply Rinv_lt_contravar; nra.
Qed.
Lemma cos_small : forall d, 8 / 100 <= d < PI / 2 -> cos d <= 9975 / 10000.
Proof.
  intros d [H0 H1]. pose proof PI_RGT_0. assert (0 < cos d) as C by (apply cos_gt_0; lra). assert (0 < tan d) as T by (apply tan_gt_0; lra). pose proof (atan_lt_id (tan d) T) as A. rewrite atan_tan in A by lra.
  assert (8 / 100 * cos d < sin d) as S. { assert (d * cos d < sin d); [|nra]. unfold tan in A. apply (Rmult_lt_compat_r (cos d)) in A; [|exact C]. unfold Rdiv in A. rewrite Rmult_assoc, Rinv_l, Rmult_1_r in A by lra. exact A. }
  pose proof (sin2_cos2 d) as Q. unfold Rsqr in Q. nra.
Qed.
Lemma atan_34 : atan (3 / 4) < 2 / 3.
Proof.
  assert (atan (3 / 4) = 2 * atan (1 / 3)) as ->; [|pose proof (atan_lt_id (1 / 3)); lra]. rewrite <- (atan_tan (2 * atan (1 / 3))).
  - f_equal. pose proof (tan_atan (1 / 3)) as T. replace (2 * atan (1 / 3)) with (atan (1 / 3) + atan (1 / 3)) by ring. destruct (atan_bound (1 / 3)) as [B1 B2]. assert (0 < cos (atan (1 / 3))) as C by (apply cos_gt_0; lra). pose proof PI_RGT_0.
    assert (atan (1 / 3) < PI / 4) as L by (rewrite <- atan_1; apply atan_increasing; lra). assert (0 < cos (atan (1 / 3) + atan (1 / 3))) as C2 by (apply cos_gt_0; pose proof (atan_pos (1 / 3)); lra). rewrite tan_plus; rewrite ?T; lra.
  - pose proof (atan_pos (1 / 3)). assert (atan (1 / 3) < PI / 4) by (rewrite <- atan_1; apply atan_increasing; lra). lra.
Qed.
Lemma atan_43 : PI / 2 - 2 / 3 < atan (4 / 3).
Proof. replace (4 / 3) with (/ (3 / 4)) by field. rewrite atan_inv by lra. pose proof atan_34. lra. Qed.
Lemma PI_3 : 3 < PI. Proof. pose proof PI2_3_2. lra. Qed.
Lemma tan_3PI8 : 19 / 10 < tan (3 * (PI / 8)).
Proof.
  pose proof PI_RGT_0. set (a := 3 * (PI / 8)). assert (0 < cos a) as C by (apply cos_gt_0; unfold a; lra). assert (0 < sin a) as S by (apply sin_gt_0; unfold a; lra).
  assert (cos (2 * a) = - cos (PI / 4)) as C2 by (replace (2 * a) with (- (PI / 4) + PI) by (unfold a; field); rewrite neg_cos, cos_neg; reflexivity). assert (sin (2 * a) = sin (PI / 4)) as S2 by (replace (2 * a) with (PI - PI / 4) by (unfold a; field); apply sin_PI_x).
  rewrite cos_PI4 in C2. rewrite sin_PI4 in S2. rewrite cos_2a in C2. rewrite sin_2a in S2. pose proof (sin2_cos2 a) as Q. unfold Rsqr in Q. assert (sin a * sin a - cos a * cos a = 2 * sin a * cos a) as E by lra.
  unfold tan. apply (Rmult_lt_reg_r (cos a)); [exact C|]. unfold Rdiv at 2. rewrite Rmult_assoc, Rinv_l, Rmult_1_r by lra. nra.
Qed.
Lemma S_bounds : 4 / 3 < PI / 2 / atan (19 / 10) < 2.
Proof.
  pose proof PI_RGT_0. pose proof tan_3PI8 as T. apply atan_increasing in T. rewrite atan_tan in T by lra. assert (PI / 4 < atan (19 / 10)) as L by (rewrite <- atan_1; apply atan_increasing; lra). set (a := atan (19 / 10)) in *.
  split; apply (Rmult_lt_reg_r a); try lra; unfold Rdiv; rewrite (Rmult_assoc (PI * / 2)), Rinv_l, Rmult_1_r by lra; lra.
Qed.
(** kappa1 is documented as the slip of the friction peak at the load Fz1 (perantoni.py:107), but with the default parameters a smaller slip gives more force. *)
Theorem C46_peak_refuted : exists kappa, 0 < kappa < kappa1 default_tire /\
  forall vx gamma, Fx (perantoni default_tire (Fz1 default_tire) (kappa1 default_tire) 0 vx gamma) < Fx (perantoni default_tire (Fz1 default_tire) kappa 0 vx gamma).
Proof.
  pose proof PI_3 as P3. pose proof S_bounds as [SL SU]. pose proof atan_43 as A43. set (S := PI / 2 / atan (19 / 10)) in *. set (t := tan (PI / (38 / 10))).
  assert (PI / (38 / 10) = PI * (10 / 38)) as Eang by field. assert (1 < t) as T1 by (unfold t; rewrite <- tan_PI4; apply tan_increasing; rewrite ?Eang; lra).
  assert (t < 4 / 3) as T2 by (unfold t; rewrite <- (tan_atan (4 / 3)); apply tan_increasing; [rewrite Eang; lra|rewrite Eang; lra|destruct (atan_bound (4 / 3)); lra]).
  set (q := t / S). assert (S * q = t) as Eq by (unfold q; field; lra). assert (1 / 2 < q < 1) as Bq by (split; apply (Rmult_lt_reg_l S); lra).
  set (z := sqrt (q * q - jitter)). assert (z * z = q * q - jitter) as Ez by (apply sqrt_sqrt; unfold jitter; nra). assert (0 < z) as Hz by (apply sqrt_lt_R0; unfold jitter; nra). assert (z < 1) as Hz1 by (unfold jitter in Ez; nra).
  exists (11 / 100 * z). split; [cbn; lra|]. intros vx gamma. unfold perantoni. cbn [Fx]. cbv zeta.
  assert (kappa_max default_tire (Fz1 default_tire) = 11 / 100) as -> by (unfold kappa_max, load_interp; cbn; field). assert (mux_max default_tire (Fz1 default_tire) = 175 / 100) as -> by (unfold mux_max, load_interp; cbn; field).
  replace (0 / alpha_max default_tire (Fz1 default_tire)) with 0 by (unfold Rdiv; ring). cbn [kappa1 default_tire Fz1 Qx]. replace (11 / 100 / (11 / 100)) with 1 by field. replace (11 / 100 * z / (11 / 100)) with z by field.
  assert (rho 0 z = q) as ->. { unfold rho. replace (0 ^ 2 + z ^ 2 + jitter) with (q * q) by (replace (z ^ 2) with (z * z) by ring; rewrite Ez; ring). apply sqrt_square. lra. }
  assert (shape (19 / 10) q = 1) as ->. { unfold shape. fold S. cbv zeta. rewrite Eq. unfold t. rewrite atan_tan by (rewrite Eang; lra). replace (19 / 10 * (PI / (38 / 10))) with (PI / 2) by field. apply sin_PI2. }
  pose proof (rho_pos 0 1) as R0. pose proof (rho_sq 0 1) as R2. set (r := rho 0 1) in *. assert (1 < r) as R1 by (unfold jitter in R2; nra).
  assert (shape (19 / 10) r <= 9975 / 10000) as Sh.
  { unfold shape. fold S. cbv zeta. assert (4 / 3 < S * r) as Hs by nra. apply atan_increasing in Hs. destruct (atan_bound (S * r)) as [_ B]. replace (19 / 10 * atan (S * r)) with (PI / 2 + (19 / 10 * atan (S * r) - PI / 2)) by ring. rewrite sin_plus, sin_PI2, cos_PI2, Rmult_1_l, Rmult_0_l, Rplus_0_r. apply cos_small. lra. }
  assert (999 / 1000 * q < z) as Zq. { apply Rnot_le_lt. intro L. assert (z * z <= (999 / 1000 * q) * (999 / 1000 * q)) by (apply Rmult_le_compat; lra). unfold jitter in Ez. nra. }
  assert (999 / 1000 < z / q) as ZQ by (apply (Rmult_lt_reg_r q); [lra|]; unfold Rdiv; rewrite (Rmult_assoc z), Rinv_l, Rmult_1_r by lra; exact Zq).
  assert (shape (19 / 10) r / r < 999 / 1000) as SR by (apply (Rmult_lt_reg_r r); [lra|]; unfold Rdiv at 1; rewrite Rmult_assoc, Rinv_l, Rmult_1_r by lra; lra).
  replace (175 / 100 * shape (19 / 10) r * 2000 * 1 / r) with (3500 * (shape (19 / 10) r / r)) by (field; lra). replace (175 / 100 * 1 * 2000 * z / q) with (3500 * (z / q)) by (field; lra). lra.
Qed.
Print Assumptions C46_peak_refuted.

(** ** an example: the default tire at 4 kN *)
Example C46_nonvacuous : sane default_tire 4000 /\ (let f := perantoni default_tire 4000 (5 / 100) (2 / 100) 30 0 in 0 < Fx f /\ Fy f < 0) /\ 0 < mux_max default_tire 4000 < 16 / 10.
Proof.
  pose proof (C46_defaults 4000 ltac:(lra)) as S. split; [exact S|]. pose proof (C46_signs default_tire 4000 (5 / 100) (2 / 100) 30 0 S) as H. cbv zeta in H. destruct H as (H1 & _ & _ & H4 & _). split; [cbv zeta; split; [apply H1|apply H4]; lra|]. unfold mux_max, load_interp; cbn; lra.
Qed.
