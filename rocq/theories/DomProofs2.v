From Verif Require Import Base RBase VehModel VehSpec TireModel PacModel RaceModel DomModel DomSpec DomProofs.
From Verif Require Import PacSpec PacProps PacProps4.
From Coq Require Import Lra Psatz.
Open Scope R_scope.

Lemma Rabs_le_inv : forall x a, Rabs x <= a -> - a <= x <= a.
Proof. intros x a H. unfold Rabs in H. destruct (Rcase_abs x); lra. Qed.
Lemma small_angle : forall d, Rabs d <= PI / 18 -> Rabs (sin d) <= 2223 / 10000 /\ 97 / 100 <= cos d.
Proof.
  intros d H. pose proof PI_4 as P. pose proof PI_RGT_0 as P0.
  assert (S1 : Rabs (sin d) <= Rabs d).
  { destruct (Rlt_le_dec 0 d) as [L|L].
    - rewrite (Rabs_pos_eq d) by lra. rewrite Rabs_pos_eq; [apply Rlt_le, sin_lt_x, L|]. apply sin_ge_0; [lra|]. rewrite Rabs_pos_eq in H by lra. lra.
    - destruct L as [L| ->]; [|rewrite sin_0, !Rabs_R0; lra].
      rewrite <- (Rabs_Ropp (sin d)), <- sin_neg, <- (Rabs_Ropp d). rewrite (Rabs_pos_eq (- d)) by lra.
      rewrite Rabs_pos_eq; [apply Rlt_le, sin_lt_x; lra|]. apply sin_ge_0; [lra|]. rewrite <- Rabs_Ropp, Rabs_pos_eq in H by lra. lra. }
  assert (S2 : Rabs (sin d) <= 2223 / 10000) by lra. split; [exact S2|].
  assert (C0 : 0 <= cos d). { apply cos_ge_0; apply Rabs_le_inv in H; lra. }
  pose proof (sin2_cos2 d) as Q. unfold Rsqr in Q. apply Rabs_le_inv in S2. nra.
Qed.
Lemma quarter : forall e, - (PI / 4) <= e <= PI / 4 -> Rabs (sin e) <= cos e /\ 0 < cos e.
Proof.
  intros e H. pose proof PI_RGT_0 as P0. assert (C0 : 0 < cos e) by (apply cos_gt_0; lra). split; [|exact C0].
  assert (C2 : 0 <= cos (2 * e)) by (apply cos_ge_0; lra). rewrite cos_2a in C2. apply Rabs_le. nra.
Qed.
Lemma along_road_nz : forall vx vy e, - (PI / 4) <= e <= PI / 4 -> Rabs vy < vx -> vx * cos e <> vy * sin e.
Proof.
  intros vx vy e He Hv E. destruct (quarter e He) as [Q C]. apply Rabs_le_inv in Q. apply Rabs_def2 in Hv. destruct (Rle_lt_dec 0 vy).
  - assert (0 <= vy * (cos e - sin e)) by (apply Rmult_le_pos; lra). assert (0 < (vx - vy) * cos e) by (apply Rmult_lt_0_compat; lra). lra.
  - assert (0 <= - vy * (cos e + sin e)) by (apply Rmult_le_pos; lra). assert (0 < (vx + vy) * cos e) by (apply Rmult_lt_0_compat; lra). lra.
Qed.

Lemma pow2_mul : forall x : R, x * x = x ^ 2.
Proof. intros. ring. Qed.
Definition usual (s : vstates) : Prop := Rabs (vy s) < vx s /\ 2 * Rabs (yaw_rate s) <= vx s.
Lemma patch_default : forall s u c, -1 <= steer u <= 1 -> 0 < vx s -> usual s -> 0 < patch_speed default_vehicle s u c.
Proof.
  intros s u c HS HV [U1 U2]. unfold patch_speed, along, wheel_angle, point_vx, point_vy, px, py, default_vehicle. cbn [max_steer_angle track_front track_rear cog_to_fa cog_to_ra].
  pose proof PI_RGT_0 as P0. apply Rabs_def2 in U1. assert (A : Rabs (yaw_rate s) <= vx s / 2) by lra. apply Rabs_le_inv in A.
  assert (D : Rabs (steer u * (PI / 18)) <= PI / 18) by (apply Rabs_le; nra). destruct (small_angle _ D) as [S1 C1]. apply Rabs_le_inv in S1. pose proof (COS_bound (steer u * (PI / 18))) as CB.
  destruct c; try (rewrite cos_0, sin_0; lra).
  all: set (sn := sin (steer u * (PI / 18))) in *; set (cn := cos (steer u * (PI / 18))) in *; clearbody sn cn;
  assert (F1 : forall w t, - t <= w <= t -> 0 <= t -> sn * w <= 2223 / 10000 * t /\ - (2223 / 10000 * t) <= sn * w) by (intros w t [] ?; nra);
  destruct (F1 (vy s + yaw_rate s * (18 / 10)) (19 / 10 * vx s)) as [B1 B2]; [lra|lra|].
  - assert (0 <= (cn - 97 / 100) * (vx s - yaw_rate s * (146 / 100 / 2))) by (apply Rmult_le_pos; lra). nra.
  - assert (0 <= (cn - 97 / 100) * (vx s - yaw_rate s * - (146 / 100 / 2))) by (apply Rmult_le_pos; lra). nra.
Qed.

(** the loads of the default car *)
Lemma load_default : forall s u c a, 5 <= vx s <= 100 -> -10 <= vy s <= 10 -> Rabs (ax_in u) <= a -> Rabs (ay_in u) <= a ->
  let Fz := static_load default_vehicle (19 / 10 * qdyn default_vehicle s) u c in 4421 - 260 * a <= Fz <= 7294 + 260 * a.
Proof.
  intros s u c a HV HY HA HB. unfold static_load, qdyn, default_vehicle. cbn [vehicle_mass gravity cog_to_fa cog_to_ra cog_height mech_balance track_front track_rear air_density]. cbv zeta.
  apply Rabs_le_inv in HA. apply Rabs_le_inv in HB.
  assert (Q : 25 <= vx s * vx s + vy s * vy s <= 10100) by nra. set (q := vx s * vx s + vy s * vy s) in *. clearbody q. destruct c; lra.
Qed.

Lemma default_tire_defined : forall Fz, tire_defined default_tire Fz <-> Fz <> 38000 /\ Fz <> 46000.
Proof.
  intros Fz. pose proof PI_RGT_0 as P. split.
  - intros [_ D2 D3 _ _]. cbn [Fz1 Fz2 kappa1 kappa2 alpha1 alpha2 default_tire] in D2, D3. split; intros ->; [apply D3|apply D2]; lra.
  - intros [D2 D3]. split; cbn [Fz1 Fz2 kappa1 kappa2 alpha1 alpha2 Qx Qy default_tire]; try lra.
    intros E. apply D2. assert (PI * (38000 - Fz) = 0) by lra. apply Rmult_integral in H. lra.
Qed.
