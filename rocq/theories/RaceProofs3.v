(** Lemmas for C54: the equations of mechanics determine what the vehicle computes. *)
From Coq Require Import FunctionalExtensionality.
From Verif Require Import Base RBase VehModel VehSpec VehProps LapSpec RaceSpec.

(** a plane vector is determined by its components along and across a wheel *)
Lemma turn_back : forall d a b a' b', along d a b = along d a' b' -> across d a b = across d a' b' -> a = a' /\ b = b'.
Proof.
  intros d a b a' b' E1 E2. unfold along, across in *. pose proof (sc1 d) as E. set (c := cos d) in *. set (s := sin d) in *.
  assert (a = (c * c + s * s) * a) as Ha by (rewrite E; ring). assert (b = (c * c + s * s) * b) as Hb by (rewrite E; ring). assert (a' = (c * c + s * s) * a') as Ha' by (rewrite E; ring). assert (b' = (c * c + s * s) * b') as Hb' by (rewrite E; ring).
  split.
  - rewrite Ha, Ha'. replace ((c * c + s * s) * a) with (c * (a * c + b * s) - s * (b * c - a * s)) by ring. rewrite E1, E2. ring.
  - rewrite Hb, Hb'. replace ((c * c + s * s) * b) with (s * (a * c + b * s) + c * (b * c - a * s)) by ring. rewrite E1, E2. ring.
Qed.
(** the loads are determined by the equations *)
Lemma loads_unique : forall v (F G : corner -> R), sane v -> over F = over G -> over (fun c => F c * px v c) = over (fun c => G c * px v c) ->
  F fl * py v fl + F fr * py v fr = G fl * py v fl + G fr * py v fr -> F rl * py v rl + F rr * py v rr = G rl * py v rl + G rr * py v rr -> forall c, F c = G c.
Proof.
  intros v F G [H1 H2 H3 _ _ _] E1 E2 E3 E4. unfold over, px, py in *.
  assert (F fl - F fr = G fl - G fr) as D1. { apply (Rmult_eq_reg_r (track_front v / 2)); lra. }
  assert (F rl - F rr = G rl - G rr) as D2. { apply (Rmult_eq_reg_r (track_rear v / 2)); lra. }
  assert (F fl + F fr = G fl + G fr) as D3. { apply (Rmult_eq_reg_r (cog_to_fa v + cog_to_ra v)); [|assumption].
    assert (F rl + F rr = G fl + G fr + G rl + G rr - (F fl + F fr)) as E by lra.
    assert ((F fl + F fr) * cog_to_fa v - (F rl + F rr) * cog_to_ra v = (G fl + G fr) * cog_to_fa v - (G rl + G rr) * cog_to_ra v) as E' by lra. rewrite E in E'. nra. }
  intros []; lra.
Qed.

Section M.
Variables (v : vparams) (aero : aero_model) (tire : corner -> tire_model) (m : moment).
Hypothesis SN : sane v.
Hypothesis HW : wheel_speed (at_car m) rl + wheel_speed (at_car m) rr <> 0.
Let r := vehicle_forward v aero tire (at_car m) (at_driver m).
(** the moment is what the vehicle computes *)
Definition computed : Prop := vx (at_acc m) = d_vx r /\ vy (at_acc m) = d_vy r /\ yaw_rate (at_acc m) = d_yaw_rate r /\ (forall c, wheel_speed (at_acc m) c = d_wheel_speed r c) /\
  (forall c, at_ratio m c = o_slip_ratio r c) /\ (forall c, at_angle m c = o_slip_angle r c) /\ o_res_ax r = 0 /\ o_res_ay r = 0.
Lemma mechanics_iff : mechanics v aero tire m <-> computed.
Proof using SN HW.
  pose proof (C41_loads v aero tire (at_car m) (at_driver m) SN) as (L1 & L2 & _ & L3 & L4). pose proof (C41_tires v aero tire (at_car m) (at_driver m)) as T. cbv zeta in T.
  pose proof (C41_drive v aero tire (at_car m) (at_driver m) HW) as D. pose proof (C41_wheels v aero tire (at_car m) (at_driver m) (sn_iw _ SN)) as W. pose proof (C41_newton v aero tire (at_car m) (at_driver m) SN) as (N1 & N2 & N3 & N4 & N5).
  destruct (C41_residuals v aero tire (at_car m) (at_driver m)) as [R1 R2]. fold r in L1, L2, L3, L4, T, D, W, N1, N2, N3, N4, N5, R1, R2. pose proof (sn_m _ SN) as HM. pose proof (sn_iz _ SN) as HI. pose proof (sn_iw _ SN) as HJ.
  unfold mechanics, computed. cbv zeta. set (s := at_car m) in *. set (u := at_driver m) in *. split.
  - intros (Fx & Fy & Fz & tl & tr & A1 & A2 & A3 & A4 & A5 & A6 & A7 & A8 & A9 & A10 & A11 & A12 & A13).
    assert (forall c, Fz c = Z (o_F r c)) as EZ. { apply (loads_unique v Fz (fun c => Z (o_F r c)) SN); [now rewrite A1|now rewrite A2|now rewrite A3|now rewrite A4]. }
    assert (forall c, at_ratio m c = o_slip_ratio r c) as E1. { intro c. rewrite (proj1 (A5 c)). symmetry. apply (T c). }
    assert (forall c, at_angle m c = o_slip_angle r c) as E2. { intro c. rewrite (proj1 (proj2 (A5 c))). symmetry. apply (T c). }
    assert (forall c, Fx c = X (o_F r c) /\ Fy c = Y (o_F r c)) as EF.
    { intro c. destruct (A5 c) as (_ & _ & B1 & B2). destruct (T c) as (_ & _ & C1 & C2). rewrite EZ, E1, E2 in B1, B2. apply (turn_back (wheel_angle v u c)); [rewrite B1, C1; reflexivity|rewrite B2, C2; reflexivity]. }
    destruct (proj1 (D tl tr) (conj A6 A7)) as [-> ->].
    assert (over Fx = over (fun c => X (o_F r c))) as SX by (unfold over; now rewrite !(fun c => proj1 (EF c))).
    assert (over Fy = over (fun c => Y (o_F r c))) as SY by (unfold over; now rewrite !(fun c => proj2 (EF c))).
    rewrite SX in A9, A12. rewrite SY in A10, A13.
    split; [|split; [|split; [|split; [|split; [exact E1|split; [exact E2|split]]]]]].
    + apply (Rmult_eq_reg_l (vehicle_mass v)); [|exact HM]. rewrite <- N1 in A9. lra.
    + apply (Rmult_eq_reg_l (vehicle_mass v)); [|exact HM]. rewrite <- N2 in A10. lra.
    + apply (Rmult_eq_reg_l (Iz v)); [|exact HI]. rewrite A11, N3. unfold over. now rewrite !(fun c => proj1 (EF c)), !(fun c => proj2 (EF c)).
    + intro c. apply (Rmult_eq_reg_l (wheel_inertia v)); [|exact HJ]. rewrite A8, W, (proj1 (EF c)), (proj2 (EF c)). reflexivity.
    + apply R1. rewrite N4, <- A12. field. exact HM.
    + apply R2. rewrite N5, <- A13. field. exact HM.
  - intros (E1 & E2 & E3 & E4 & E5 & E6 & E7 & E8). apply R1 in E7. apply R2 in E8.
    exists (fun c => X (o_F r c)), (fun c => Y (o_F r c)), (fun c => Z (o_F r c)), (o_drive_torque_rl r), (o_drive_torque_rr r).
    split; [exact L1|]. split; [exact L2|]. split; [exact L3|]. split; [exact L4|]. split.
    { intro c. rewrite E5, E6. apply (T c). }
    destruct (proj2 (D _ _) (conj eq_refl eq_refl)) as [D1 D2]. split; [exact D1|]. split; [exact D2|]. split.
    { intro c. rewrite E4, W. reflexivity. }
    rewrite E1, E2, E3. split; [exact N1|]. split; [exact N2|]. split; [exact N3|]. rewrite <- E7, <- E8, N4, N5. split; field; exact HM.
Qed.
End M.
