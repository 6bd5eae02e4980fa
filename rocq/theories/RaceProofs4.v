(** Lemmas for C54: within the default limits a sensible car moves forward, and there is no division by zero. *)
From Coq Require Import Ratan.
From Verif Require Import Base RBase VehModel VehSpec LapSpec RaceSpec.

Lemma abs_le : forall x y, Rabs x <= y -> - y <= x <= y.
Proof. intros x y H. pose proof (Rle_abs x). pose proof (Rle_abs (- x)). rewrite Rabs_Ropp in *. lra. Qed.
Lemma pi_le : PI < 16 / 5.
Proof.
  assert (cos (8 / 5) < 0) as H.
  { pose proof (proj2 (pre_cos_bound (8 / 5) 0 ltac:(lra) ltac:(lra))) as H. unfold cos_approx, cos_term in H. simpl in H. lra. }
  destruct (Rlt_le_dec PI (16 / 5)) as [L|L]; [exact L|exfalso].
  pose proof (cos_ge_0 (8 / 5)). lra.
Qed.
Lemma tan_le : forall x, 0 <= x <= 1 -> tan x * (1 - x * x / 2) <= x /\ 0 < cos x /\ 0 <= sin x.
Proof.
  intros x Hx. pose proof PI_RGT_0 as HP. assert (3 < PI) as P3. { pose proof PI2_3_2. lra. }
  assert (0 < cos x) as C by (apply cos_gt_0; lra). assert (0 <= sin x) as S0 by (apply sin_ge_0; lra).
  split; [|auto].
  pose proof (proj1 (pre_cos_bound x 0 ltac:(lra) ltac:(lra))) as H. unfold cos_approx, cos_term in H. simpl in H. assert (1 - x * x / 2 <= cos x) as B by lra. clear H.
  assert (sin x <= x) as S1. { destruct (Req_dec x 0) as [->|N]; [rewrite sin_0; lra|]. left. apply sin_lt_x. lra. }
  unfold tan, Rdiv. assert (sin x * / cos x * cos x = sin x) as E by (field; lra). assert (0 <= sin x * / cos x) as P by (apply Rmult_le_pos; [lra|left; now apply Rinv_0_lt_compat]). nra.
Qed.
Lemma tan5 : tan (5 * PI / 180) <= 9 / 100 /\ 0 <= tan (5 * PI / 180).
Proof.
  pose proof pi_le as HP. pose proof PI_RGT_0 as H0. destruct (tan_le (5 * PI / 180) ltac:(lra)) as (T & C & S0). set (x := 5 * PI / 180) in *. assert (0 <= x <= 4 / 45) as X by (unfold x; lra).
  assert (0 <= tan x) as P by (apply Rmult_le_pos; [lra|left; now apply Rinv_0_lt_compat]). split; [|exact P]. assert (x * x <= 16 / 2025) by nra. nra.
Qed.
Lemma tan10 : forall x, 0 <= x <= PI / 18 -> tan x <= 19 / 100 /\ 0 <= tan x.
Proof.
  intros x X0. pose proof pi_le as HP. destruct (tan_le x ltac:(lra)) as (T & C & S0). assert (0 <= x <= 8 / 45) as X by lra.
  assert (0 <= tan x) as P by (apply Rmult_le_pos; [lra|left; now apply Rinv_0_lt_compat]). split; [|exact P]. assert (x * x <= 64 / 2025) by nra. nra.
Qed.
(** the sine of a steering angle is at most [T] times its cosine *)
Lemma steer_sc : forall d m, 0 <= m <= PI / 18 -> - m <= d <= m -> 0 < cos d /\ Rabs (sin d) <= tan m * cos d.
Proof.
  intros d m Hm Hd. pose proof PI_RGT_0 as H0. assert (0 < cos d) as C by (apply cos_gt_0; lra). split; [exact C|].
  assert (sin d = tan d * cos d) as -> by (unfold tan; field; lra). rewrite Rabs_mult, (Rabs_right (cos d)) by lra. apply Rmult_le_compat_r; [lra|].
  assert (tan d <= tan m) as A. { destruct (Req_dec d m) as [->|N]; [lra|]. left. apply tan_increasing; lra. }
  assert (- tan m <= tan d) as B. { rewrite <- tan_neg. destruct (Req_dec d (- m)) as [->|N]; [lra|]. left. apply tan_increasing; lra. }
  apply Rabs_le. lra.
Qed.
(** a slip angle of at most 5 degrees *)
Lemma slip_bound : forall vt vl, 0 < vl -> - (5 * PI / 180) <= atan (vt / vl) <= 5 * PI / 180 -> Rabs vt <= 9 / 100 * vl.
Proof.
  intros vt vl H [A B]. pose proof pi_le as HP. pose proof PI_RGT_0 as H0. destruct tan5 as [T T0]. set (e := tan (5 * PI / 180)) in *.
  assert (vt / vl <= e) as U. { rewrite <- (atan_right_inv (vt / vl)). pose proof (atan_bound (vt / vl)). destruct (Req_dec (atan (vt / vl)) (5 * PI / 180)) as [->|N]; [unfold e; lra|]. left. apply tan_increasing; lra. }
  assert (- e <= vt / vl) as L. { rewrite <- (atan_right_inv (vt / vl)). unfold e. rewrite <- tan_neg. pose proof (atan_bound (vt / vl)). destruct (Req_dec (atan (vt / vl)) (- (5 * PI / 180))) as [->|N]; [lra|]. left. apply tan_increasing; lra. }
  assert (vt = vt / vl * vl) as -> by (field; lra). rewrite Rabs_mult, (Rabs_right vl) by lra. apply Rmult_le_compat_r; [lra|]. apply Rabs_le. lra.
Qed.

(** the argument for a left turn, with [T] the tangent of the largest steering angle *)
Section Turn.
Variables (vx vy w a b h hr c s T : R).
Hypothesis Hvx : 5 <= vx.
Hypothesis Hw : 0 <= w <= 32 / 5.
Hypothesis Ha : 0 < a. Hypothesis Hb : 0 < b. Hypothesis Hh : 0 < h <= 3 / 4. Hypothesis Hhr : 0 < hr <= 3 / 4.
Hypothesis Hc : 0 < c. Hypothesis Hs : Rabs s <= T * c. Hypothesis HT : 0 <= T <= 19 / 100. Hypothesis Hwb : (a + b) * T <= h.
Let Y := vy + w * a.
Let Rr := vy - w * b.
Let e := 9 / 100.
Let outer := (vx + w * h) * c + Y * s.
Let inner := (vx - w * h) * c + Y * s.
Hypothesis Hrear : Rabs Rr <= e * (vx - w * hr).
Lemma rear_pos : 0 < vx - w * hr /\ 0 < vx + w * hr /\ 0 < vx - w * h /\ w * h <= 24 / 5 /\ 0 <= w * hr /\ 0 <= w * h.
Proof using Hvx Hw Hh Hhr. clear HT. assert (w * hr <= 24 / 5) by nra. assert (w * h <= 24 / 5) by nra. assert (0 <= w * hr) by nra. assert (0 <= w * h) by nra. lra. Qed.
Lemma s_abs : - (T * c) <= s <= T * c.
Proof using Hs. apply abs_le in Hs. lra. Qed.
Lemma outer_pos : 0 < outer.
Proof using Hvx Hw Ha Hb Hh Hhr Hc Hs HT Hwb Hrear.
  clear inner. destruct rear_pos as (R1 & R2 & R3 & R4 & R5 & R6). pose proof s_abs as S1. pose proof (abs_le _ _ Hrear) as H1. unfold outer.
  assert (Y = Rr + w * (a + b)) as EY by (unfold Y, Rr; ring). assert (0 <= T * c) as P by nra. assert (w * (a + b) * (T * c) <= w * h * c) as Q1. { replace (w * (a + b) * (T * c)) with (w * ((a + b) * T) * c) by ring. apply Rmult_le_compat_r; [lra|]. apply Rmult_le_compat_l; lra. }
  assert (0 <= w * (a + b)) as Q0 by nra.
  assert (- (e * vx) <= Y <= e * vx + w * (a + b)) as HY. { rewrite EY. unfold e in *. split; nra. }
  assert (Y * s >= - ((e * vx + w * (a + b)) * (T * c))) as QY. { assert (Rabs (Y * s) <= (e * vx + w * (a + b)) * (T * c)) as K. { rewrite Rabs_mult. apply Rmult_le_compat; try apply Rabs_pos; [|exact Hs]. apply Rabs_le. split; [|lra]. unfold e in *. lra. } apply abs_le in K. lra. }
  assert (vx * (T * c) <= vx * (19 / 100 * c)) as TC by (apply Rmult_le_compat_l; [lra|]; apply Rmult_le_compat_r; lra). assert (e * vx * (T * c) <= 1 / 10 * vx * c) by (unfold e; assert (0 <= vx * c) by nra; lra).
  nra.
Qed.
Hypothesis Hout : Rabs (Y * c - (vx + w * h) * s) <= e * outer.
Lemma inner_pos : 0 < inner.
Proof using Hvx Hw Ha Hb Hh Hhr Hc Hs HT Hwb Hrear Hout.
  destruct rear_pos as (R1 & R2 & R3 & R4 & R5 & R6). pose proof s_abs as S1. pose proof (abs_le _ _ Hrear) as H1. pose proof (abs_le _ _ Hout) as H2. unfold inner, outer in *.
  assert (Y = Rr + w * (a + b)) as EY by (unfold Y, Rr; ring). assert (0 <= w * (a + b)) as Q0 by nra. assert (- (e * vx) <= Y) as HY by (rewrite EY; unfold e in *; nra). clear EY. clearbody Y. clear Hrear H1 Hout.
  destruct (Rle_lt_dec 0 s) as [P|P].
  - assert (Y * s >= - (e * vx * (T * c))). { assert (0 <= (Y + e * vx) * s) by nra. assert (e * vx * s <= e * vx * (T * c)) by (apply Rmult_le_compat_l; unfold e; nra). nra. }
    assert (vx * (T * c) <= vx * (19 / 100 * c)) as TC by (apply Rmult_le_compat_l; [lra|]; apply Rmult_le_compat_r; lra). assert (e * vx * (T * c) <= 2 / 100 * vx * c) by (unfold e; assert (0 <= vx * c) by nra; lra). assert (0 < (98 / 100 * vx - w * h) * c) by (apply Rmult_lt_0_compat; nra). nra.
  - destruct (Rle_lt_dec Y 0) as [N|N]; [assert (0 <= Y * s) by nra; assert (0 < (vx - w * h) * c) by nra; lra|].
    assert (Y <= e * (vx + w * h)) as U. { apply (Rmult_le_reg_r c); [exact Hc|]. assert (0 <= - ((vx + w * h) * s)) by nra. assert (0 <= - (Y * s)) by nra. unfold e in *. nra. }
    assert (Y <= 18 / 100 * vx) as U2 by (unfold e in U; lra). assert (Y * s >= - (18 / 100 * vx * (T * c))). { assert (0 <= Y * (s + T * c)) by nra. assert (Y * (T * c) <= 18 / 100 * vx * (T * c)) by (apply Rmult_le_compat_r; nra). nra. }
    assert (18 / 100 * vx * (T * c) <= 35 / 1000 * vx * c). { assert (vx * (T * c) <= vx * (19 / 100 * c)) as TC by (apply Rmult_le_compat_l; [lra|]; apply Rmult_le_compat_r; lra). assert (0 <= vx * c) by nra. lra. }
    assert (0 < (965 / 1000 * vx - w * h) * c) by (apply Rmult_lt_0_compat; lra). nra.
Qed.
Lemma lateral : Rabs vy < vx.
Proof using Hvx Hw Ha Hb Hh Hhr Hc Hs HT Hwb Hrear Hout.
  destruct rear_pos as (R1 & R2 & R3 & R4 & R5 & R6). pose proof (abs_le _ _ Hrear) as H1. clear inner.
  assert (Rabs Y <= 6 / 10 * vx) as HY.
  { assert (Rabs (Y * c) <= (vx + w * h) * (T * c) + e * ((vx + w * h) * c + Rabs Y * (T * c))) as K.
    { replace (Y * c) with ((Y * c - (vx + w * h) * s) + (vx + w * h) * s) by ring. eapply Rle_trans; [apply Rabs_triang|]. rewrite (Rabs_mult (vx + w * h) s), (Rabs_right (vx + w * h)) by lra. assert (outer <= (vx + w * h) * c + Rabs Y * (T * c)) as OU.
      { unfold outer. assert (Y * s <= Rabs Y * (T * c)). { eapply Rle_trans; [apply Rle_abs|]. rewrite Rabs_mult. apply Rmult_le_compat_l; [apply Rabs_pos|exact Hs]. } lra. }
      assert ((vx + w * h) * Rabs s <= (vx + w * h) * (T * c)) by (apply Rmult_le_compat_l; lra). unfold e in *. lra. }
    rewrite Rabs_mult, (Rabs_right c) in K by lra. assert (Rabs Y <= (vx + w * h) * T + e * ((vx + w * h) + Rabs Y * T)) as K2. { apply (Rmult_le_reg_r c); [exact Hc|]. lra. }
    pose proof (Rabs_pos Y) as PY. unfold e in K2. assert (Rabs Y * T <= Rabs Y * (19 / 100)) by (apply Rmult_le_compat_l; lra). assert ((vx + w * h) * T <= (vx + w * h) * (19 / 100)) by (apply Rmult_le_compat_l; lra). lra. }
  apply abs_le in HY. assert (vy * (a + b) = b * Y + a * Rr) as E by (unfold Y, Rr; ring). unfold e in H1.
  apply Rabs_def1; (apply (Rmult_lt_reg_r (a + b)); [lra|]); rewrite ?E; clearbody Y Rr; nra.
Qed.
End Turn.

Lemma moves_forward : forall v s u, sensible v -> 5 <= vx s -> - (2 * PI) <= yaw_rate s <= 2 * PI -> -1 <= steer u <= 1 ->
  (forall c, let d := wheel_angle v u c in - (5 * PI / 180) <= atan (across d (point_vx v s c) (point_vy v s c) / along d (point_vx v s c) (point_vy v s c)) <= 5 * PI / 180) ->
  (forall c, 0 < along (wheel_angle v u c) (point_vx v s c) (point_vy v s c)) /\ Rabs (vy s) < vx s.
Proof.
  intros v s u SE Hvx Hw Hu HS. pose proof pi_le as HP. pose proof PI_RGT_0 as H0. destruct SE as [E1 E2 E3 E4 E5 E6 _ _ _].
  destruct (tan10 _ E5) as [T1 T2]. set (T := tan (max_steer_angle v)) in *. set (d := steer u * max_steer_angle v) in *.
  assert (- max_steer_angle v <= d <= max_steer_angle v) as HD by (unfold d; nra). destruct (steer_sc d _ E5 HD) as [C S1]. fold T in S1.
  assert (forall c, along (wheel_angle v u c) (point_vx v s c) (point_vy v s c) = match c with fl | fr => (vx s - yaw_rate s * py v c) * cos d + (vy s + yaw_rate s * cog_to_fa v) * sin d | rl | rr => vx s - yaw_rate s * py v c end /\
    across (wheel_angle v u c) (point_vx v s c) (point_vy v s c) = match c with fl | fr => (vy s + yaw_rate s * cog_to_fa v) * cos d - (vx s - yaw_rate s * py v c) * sin d | rl | rr => vy s - yaw_rate s * cog_to_ra v end) as EA.
  { intros []; unfold along, across, wheel_angle, point_vx, point_vy, px; fold d; rewrite ?cos_0, ?sin_0; split; ring. }
  assert (forall c, 0 < along (wheel_angle v u c) (point_vx v s c) (point_vy v s c) -> Rabs (across (wheel_angle v u c) (point_vx v s c) (point_vy v s c)) <= 9 / 100 * along (wheel_angle v u c) (point_vx v s c) (point_vy v s c)) as SB.
  { intros c Hc. apply slip_bound; [exact Hc|]. apply HS. }
  pose proof (proj1 (EA rl)) as Arl. pose proof (proj1 (EA rr)) as Arr. pose proof (proj1 (EA fl)) as Afl. pose proof (proj1 (EA fr)) as Afr. unfold py in Arl, Arr, Afl, Afr.
  pose proof (proj2 (EA rl)) as Brl. pose proof (proj2 (EA rr)) as Brr. pose proof (proj2 (EA fl)) as Bfl. pose proof (proj2 (EA fr)) as Bfr. unfold py in Bfl, Bfr. clear EA.
  set (h := track_front v / 2) in *. set (hr := track_rear v / 2) in *. assert (0 < h <= 3 / 4) as Hh by (unfold h; lra). assert (0 < hr <= 3 / 4) as Hhr by (unfold hr; lra).
  destruct (Rle_lt_dec 0 (yaw_rate s)) as [W|W].
  - assert (0 <= yaw_rate s <= 32 / 5) as HW by lra. destruct (rear_pos (vx s) (yaw_rate s) h hr Hvx HW Hh Hhr) as (R1 & R2 & R3 & R4 & R5 & R6).
    assert (Rabs (vy s - yaw_rate s * cog_to_ra v) <= 9 / 100 * (vx s - yaw_rate s * hr)) as Hre. { rewrite <- Brl, <- Arl. apply SB. now rewrite Arl. }
    pose proof (outer_pos (vx s) (vy s) (yaw_rate s) (cog_to_fa v) (cog_to_ra v) h hr (cos d) (sin d) T Hvx HW E1 E2 Hh Hhr C S1 (conj T2 T1) E6 Hre) as OP.
    assert (along (wheel_angle v u fr) (point_vx v s fr) (point_vy v s fr) = (vx s + yaw_rate s * h) * cos d + (vy s + yaw_rate s * cog_to_fa v) * sin d) as Afr' by (rewrite Afr; ring).
    assert (Rabs ((vy s + yaw_rate s * cog_to_fa v) * cos d - (vx s + yaw_rate s * h) * sin d) <= 9 / 100 * ((vx s + yaw_rate s * h) * cos d + (vy s + yaw_rate s * cog_to_fa v) * sin d)) as HO.
    { rewrite <- Afr'. replace ((vy s + yaw_rate s * cog_to_fa v) * cos d - (vx s + yaw_rate s * h) * sin d) with (across (wheel_angle v u fr) (point_vx v s fr) (point_vy v s fr)) by (rewrite Bfr; ring). apply SB. now rewrite Afr'. }
    pose proof (inner_pos (vx s) (vy s) (yaw_rate s) (cog_to_fa v) (cog_to_ra v) h hr (cos d) (sin d) T Hvx HW E1 E2 Hh Hhr C S1 (conj T2 T1) E6 Hre HO) as IP.
    split; [|exact (lateral (vx s) (vy s) (yaw_rate s) (cog_to_fa v) (cog_to_ra v) h hr (cos d) (sin d) T Hvx HW E1 E2 Hh Hhr C S1 (conj T2 T1) E6 Hre HO)].
    intros []; [rewrite Afl; exact IP|rewrite Afr'; exact OP|rewrite Arl; exact R1|rewrite Arr; lra].
  - assert (0 <= - yaw_rate s <= 32 / 5) as HW by lra. destruct (rear_pos (vx s) (- yaw_rate s) h hr Hvx HW Hh Hhr) as (R1 & R2 & R3 & R4 & R5 & R6).
    assert (along (wheel_angle v u rr) (point_vx v s rr) (point_vy v s rr) = vx s - - yaw_rate s * hr) as Arr' by (rewrite Arr; ring).
    assert (Rabs (- vy s - - yaw_rate s * cog_to_ra v) <= 9 / 100 * (vx s - - yaw_rate s * hr)) as Hre. { rewrite <- Arr'. replace (- vy s - - yaw_rate s * cog_to_ra v) with (- across (wheel_angle v u rr) (point_vx v s rr) (point_vy v s rr)) by (rewrite Brr; ring). rewrite Rabs_Ropp. apply SB. now rewrite Arr'. }
    assert (Rabs (- sin d) <= T * cos d) as S2 by (now rewrite Rabs_Ropp).
    pose proof (outer_pos (vx s) (- vy s) (- yaw_rate s) (cog_to_fa v) (cog_to_ra v) h hr (cos d) (- sin d) T Hvx HW E1 E2 Hh Hhr C S2 (conj T2 T1) E6 Hre) as OP.
    assert (along (wheel_angle v u fl) (point_vx v s fl) (point_vy v s fl) = (vx s + - yaw_rate s * h) * cos d + (- vy s + - yaw_rate s * cog_to_fa v) * - sin d) as Afl' by (rewrite Afl; ring).
    assert (Rabs ((- vy s + - yaw_rate s * cog_to_fa v) * cos d - (vx s + - yaw_rate s * h) * - sin d) <= 9 / 100 * ((vx s + - yaw_rate s * h) * cos d + (- vy s + - yaw_rate s * cog_to_fa v) * - sin d)) as HO.
    { rewrite <- Afl'. replace ((- vy s + - yaw_rate s * cog_to_fa v) * cos d - (vx s + - yaw_rate s * h) * - sin d) with (- across (wheel_angle v u fl) (point_vx v s fl) (point_vy v s fl)) by (rewrite Bfl; ring). rewrite Rabs_Ropp. apply SB. now rewrite Afl'. }
    pose proof (inner_pos (vx s) (- vy s) (- yaw_rate s) (cog_to_fa v) (cog_to_ra v) h hr (cos d) (- sin d) T Hvx HW E1 E2 Hh Hhr C S2 (conj T2 T1) E6 Hre HO) as IP.
    split; [|rewrite <- Rabs_Ropp; exact (lateral (vx s) (- vy s) (- yaw_rate s) (cog_to_fa v) (cog_to_ra v) h hr (cos d) (- sin d) T Hvx HW E1 E2 Hh Hhr C S2 (conj T2 T1) E6 Hre HO)].
    intros []; [rewrite Afl'; exact OP|replace (along (wheel_angle v u fr) _ _) with ((vx s - - yaw_rate s * h) * cos d + (- vy s + - yaw_rate s * cog_to_fa v) * - sin d) by (rewrite Afr; ring); exact IP|rewrite Arl; lra|rewrite Arr'; exact R1].
Qed.
Lemma quarter : forall e, - (PI / 4) <= e <= PI / 4 -> 0 < cos e /\ Rabs (sin e) <= cos e.
Proof.
  intros e H. pose proof PI_RGT_0 as H0. assert (0 < cos e) as C by (apply cos_gt_0; lra). split; [exact C|].
  assert (sin e = tan e * cos e) as -> by (unfold tan; field; lra). rewrite Rabs_mult, (Rabs_right (cos e)) by lra. rewrite <- (Rmult_1_l (cos e)) at 2. apply Rmult_le_compat_r; [lra|]. pose proof tan_PI4 as T4.
  assert (tan e <= 1) as A. { rewrite <- T4. destruct (Req_dec e (PI / 4)) as [->|N]; [lra|]. left. apply tan_increasing; lra. }
  assert (-1 <= tan e) as B. { replace (-1) with (tan (- (PI / 4))) by (rewrite tan_neg, T4; reflexivity). destruct (Req_dec e (- (PI / 4))) as [->|N]; [lra|]. left. apply tan_increasing; lra. }
  apply Rabs_le. lra.
Qed.
Lemma moment_regular : forall v m, sensible v -> 0 < 1 - at_n m * at_curv m -> - (PI / 4) <= at_eta m <= PI / 4 -> 5 <= vx (at_car m) -> - (2 * PI) <= yaw_rate (at_car m) <= 2 * PI -> -1 <= steer (at_driver m) <= 1 ->
  (forall c, let d := wheel_angle v (at_driver m) c in - (5 * PI / 180) <= atan (across d (point_vx v (at_car m) c) (point_vy v (at_car m) c) / along d (point_vx v (at_car m) c) (point_vy v (at_car m) c)) <= 5 * PI / 180) ->
  regular v m /\ 0 < along_road m.
Proof.
  intros v m SE HN HE Hvx Hw Hu HS. destruct (moves_forward v _ _ SE Hvx Hw Hu HS) as [AL LA]. destruct (quarter _ HE) as [C S1].
  assert (0 < vx (at_car m) * cos (at_eta m) - vy (at_car m) * sin (at_eta m)) as SP.
  { assert (Rabs (vy (at_car m) * sin (at_eta m)) <= Rabs (vy (at_car m)) * cos (at_eta m)) as K by (rewrite Rabs_mult; apply Rmult_le_compat_l; [apply Rabs_pos|exact S1]). apply abs_le in K. assert (Rabs (vy (at_car m)) * cos (at_eta m) < vx (at_car m) * cos (at_eta m)) by (apply Rmult_lt_compat_r; lra). lra. }
  split; [|unfold along_road; apply Rdiv_lt_0_compat; assumption]. constructor; [lra|lra|]. intro c. pose proof (AL c). lra.
Qed.
