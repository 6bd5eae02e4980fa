(** C45 continued: straight lines, circles, mirrored maps. *)
From Verif Require Import Base RBase CollocProofs TrackModel TrackSpec TrackProofs TrackProps TrackProps2.
From Coq Require Import Lra Lia.

(** A mirrored map has the same distances and the opposite curvatures. *)
Theorem C45_mirror : forall x y, moving x y -> exists s k h h', cartesian_to_curvilinear x y = Ok (s, k, h) /\
  cartesian_to_curvilinear x (map Ropp y) = Ok (s, map Ropp k, h') /\ forall i, (i < List.length x)%nat -> cos (vget i h') = cos (vget i h) /\ sin (vget i h') = - sin (vget i h).
Proof.
  intros x y M. destruct M as (H2 & Ly & Mv). assert (moving x y) as M by now repeat split. destruct (cart_ok x y Ly H2) as (s & dx & dy & d2x & d2y & k & h & E & Ls & Lk & Lh & Ldx & Ldy & Zs & Ss & Vx & Vy & Vxx & Vyy & Vk & Zh & Sh).
  set (n := List.length x) in *. assert (List.length (map Ropp y) = n) as Ly' by (now rewrite map_length). assert (forall i, (i < n)%nat -> vget i (map Ropp y) = 0 + (0 * vget i x + -1 * vget i y)) as Ty by (intros i Hi; rewrite vget_map by lia; ring).
  destruct (cart_ok x (map Ropp y)) as (s' & dx' & dy' & d2x' & d2y' & k' & h' & E' & Ls' & Lk' & Lh' & Ldx' & Ldy' & Zs' & Ss' & Vx' & Vy' & Vxx' & Vyy' & Vk' & Zh' & Sh'); [exact Ly'|exact H2|]. fold n in Ls', Lk', Lh', Ldx', Ldy', Ss', Vx', Vy', Vxx', Vyy', Vk', Sh'.
  assert (grid s) as G by (eapply moving_grid; eassumption).
  assert (s' = s) as ->. { apply vec_ext; [lia|]. intros j. rewrite Ls'. induction j as [|j IH]; intro Hj; [now rewrite Zs, Zs'|]. rewrite Ss', Ss, IH by lia. f_equal. unfold pdist. f_equal. rewrite !Ty by lia. ring. }
  assert (forall i, (i < n)%nat -> vget i dx' = vget i dx) as Dx by (intros i Hi; now rewrite Vx', Vx).
  assert (forall i, (i < n)%nat -> vget i dy' = 0 * vget i dx + -1 * vget i dy) as Dy by (intros i Hi; rewrite Vy', Vx, Vy by exact Hi; eapply gradient_lin; eassumption).
  assert (forall i, (i < n)%nat -> vget i d2x' = 1 * vget i d2x + 0 * vget i d2y) as D2x by (intros i Hi; rewrite Vxx', Vxx, Vyy by exact Hi; eapply (gradient_lin _ _ _ _ _ _ _ 0); try eassumption; intros j Hj; rewrite Dx by exact Hj; ring).
  assert (forall i, (i < n)%nat -> vget i d2y' = 0 * vget i d2x + -1 * vget i d2y) as D2y by (intros i Hi; rewrite Vyy', Vxx, Vyy by exact Hi; eapply (gradient_lin _ _ _ _ _ _ _ 0); try eassumption; intros j Hj; rewrite Dy by exact Hj; ring).
  assert (forall j, (j < n)%nat -> vget j k' = - vget j k) as Vkk.
  { intros j Hj. rewrite Vk', Vk, Dx, Dy, D2x, D2y by exact Hj. unfold curv. set (p := vget j dx). set (q := vget j dy). set (u := vget j d2x). set (v := vget j d2y). replace (p * p + (0 * p + -1 * q) * (0 * p + -1 * q)) with (p * p + q * q) by ring. unfold Rdiv. ring. }
  assert (k' = map Ropp k) as -> by (apply vec_ext; [rewrite map_length; lia|]; intros j Hj; rewrite vget_map by lia; apply Vkk; lia).
  exists s, k, h, h'. split; [exact E|]. split; [exact E'|].
  pose proof (first_unit x y s n eq_refl H2 (Mv 0%nat ltac:(lia)) (Ss 0%nat ltac:(lia))) as U. cbv zeta in U. rewrite <- Vx, <- Vy in U by lia. destruct (arctan2_unit _ _ U) as [C Sn]. rewrite <- Zh in C, Sn.
  assert (vget 0 dx' * vget 0 dx' + vget 0 dy' * vget 0 dy' = 1) as U' by (rewrite Dx, Dy by lia; rewrite <- U; ring). destruct (arctan2_unit _ _ U') as [C' S']. rewrite <- Zh' in C', S'. rewrite Dx in C' by lia. rewrite Dy in S' by lia.
  assert (forall i, (i < n)%nat -> vget i h' - vget 0 h' = - (vget i h - vget 0 h)) as Dh. { induction i as [|i IH]; intro Hi; [ring|]. rewrite Sh, Sh', !Vkk by lia. specialize (IH ltac:(lia)). set (z := (vget i k + vget (S i) k) / 2 * (vget (S i) s - vget i s)). replace ((- vget i k + - vget (S i) k) / 2 * (vget (S i) s - vget i s)) with (- z) by (unfold z; field). lra. }
  intros i Hi. specialize (Dh i Hi). assert (vget i h' = vget 0 h' + - (vget i h - vget 0 h)) as -> by lra. set (w := vget i h - vget 0 h) in *. replace (vget i h) with (vget 0 h + w) by (unfold w; ring).
  rewrite !cos_plus, !sin_plus, cos_neg, sin_neg, C, Sn, C', S'. split; ring.
Qed.
Print Assumptions C45_mirror.

(** Points along a straight line: no curvature, one heading, and integrating back gives the points again. *)
Theorem C45_straight : forall px py ux uy t, grid t -> ux * ux + uy * uy = 1 ->
  let x := map (fun v => px + v * ux) t in let y := map (fun v => py + v * uy) t in
  exists h0, cos h0 = ux /\ sin h0 = uy /\
    cartesian_to_curvilinear x y = Ok (map (fun v => v - vget 0 t) t, map (fun _ => 0) t, map (fun _ => h0) t) /\
    curvilinear_to_cartesian (map (fun v => v - vget 0 t) t) (map (fun _ => 0) t) (vget 0 x) (vget 0 y) h0 = Ok (x, y, map (fun _ => h0) t).
Proof.
  intros px py ux uy t Gt U x y. pose proof (proj1 Gt) as H2. set (n := List.length t) in *. assert (List.length x = n) as Lx by apply map_length. assert (List.length y = n) as Ly by apply map_length.
  assert (forall i, (i < n)%nat -> vget i x = px + vget i t * ux) as Tx by (intros; unfold x; now rewrite vget_map). assert (forall i, (i < n)%nat -> vget i y = py + vget i t * uy) as Ty by (intros; unfold y; now rewrite vget_map).
  destruct (cart_ok x y) as (s & dx & dy & d2x & d2y & k & h & E & Ls & Lk & Lh & Ldx & Ldy & Zs & Ss & Vx & Vy & Vxx & Vyy & Vk & Zh & Sh); [lia|lia|]. rewrite Lx in *.
  assert (forall j, (j < n)%nat -> vget j s = vget j t - vget 0 t) as Vs.
  { induction j as [|j IH]; intro Hj; [rewrite Zs; ring|]. rewrite Ss, IH, !Tx, !Ty by lia. pose proof (proj2 Gt j Hj). unfold pdist. replace ((px + vget (S j) t * ux - (px + vget j t * ux)) * (px + vget (S j) t * ux - (px + vget j t * ux)) + (py + vget (S j) t * uy - (py + vget j t * uy)) * (py + vget (S j) t * uy - (py + vget j t * uy))) with ((ux * ux + uy * uy) * ((vget (S j) t - vget j t) * (vget (S j) t - vget j t))) by ring.
    rewrite U, Rmult_1_l, sqrt_square by lra. ring. }
  assert (s = map (fun v => v - vget 0 t) t) as Es by (apply vec_ext; [rewrite map_length; fold n; lia|]; intros j Hj; rewrite vget_map by (fold n; lia); apply Vs; lia). assert (grid s) as G by (rewrite Es; now apply grid_shift).
  assert (forall i, (i < n)%nat -> gradient_at n s s i = 1) as G1.
  { intros i Hi. destruct G as [_ G]. rewrite Ls in G. unfold gradient_at. destruct (Nat.eqb_spec i 0) as [->|N0]; [pose proof (G 0%nat ltac:(lia)); field; lra|]. pose proof (G (i - 1)%nat ltac:(lia)) as Ga. replace (S (i - 1)) with i in Ga by lia. destruct (Nat.eqb_spec (S i) n) as [En|Nn]; [field; lra|]. pose proof (G i ltac:(lia)) as Gb. cbv zeta. field. repeat split; lra. }
  assert (forall i, (i < n)%nat -> vget i dx = ux) as Dx. { intros i Hi. rewrite Vx by exact Hi. rewrite (gradient_lin n s s x s ux 0 (px + vget 0 t * ux)); try assumption; [rewrite G1 by exact Hi; ring|]. intros j Hj. rewrite Tx, Vs by exact Hj. ring. }
  assert (forall i, (i < n)%nat -> vget i dy = uy) as Dy. { intros i Hi. rewrite Vy by exact Hi. rewrite (gradient_lin n s s y s uy 0 (py + vget 0 t * uy)); try assumption; [rewrite G1 by exact Hi; ring|]. intros j Hj. rewrite Ty, Vs by exact Hj. ring. }
  assert (forall i, (i < n)%nat -> vget i d2x = 0) as D2x. { intros i Hi. rewrite Vxx by exact Hi. rewrite (gradient_lin n s s dx s 0 0 ux); try assumption; [ring|]. intros j Hj. rewrite Dx by exact Hj. ring. }
  assert (forall i, (i < n)%nat -> vget i d2y = 0) as D2y. { intros i Hi. rewrite Vyy by exact Hi. rewrite (gradient_lin n s s dy s 0 0 uy); try assumption; [ring|]. intros j Hj. rewrite Dy by exact Hj. ring. }
  assert (forall i, (i < n)%nat -> vget i k = 0) as Vk0. { intros i Hi. rewrite Vk, Dx, Dy, D2x, D2y by exact Hi. unfold curv, Rdiv. ring. }
  exists (arctan2 uy ux). destruct (arctan2_unit ux uy U) as [C Sn]. split; [exact C|]. split; [exact Sn|]. set (h0 := arctan2 uy ux) in *.
  assert (forall i, (i < n)%nat -> vget i h = h0) as Vh. { induction i as [|i IH]; intro Hi; [rewrite Zh, Dx, Dy by lia; reflexivity|]. rewrite Sh, IH, !Vk0 by lia. field. }
  assert (k = map (fun _ => 0) t) as Ek by (apply vec_ext; [rewrite map_length; fold n; lia|]; intros j Hj; rewrite vget_map by (fold n; lia); apply Vk0; lia). assert (h = map (fun _ => h0) t) as Eh by (apply vec_ext; [rewrite map_length; fold n; lia|]; intros j Hj; rewrite vget_map by (fold n; lia); apply Vh; lia).
  split; [now rewrite E, Es, Ek, Eh|]. rewrite <- Es, <- Ek.
  destruct (C45_positions s k (vget 0 x) (vget 0 y) h0) as (x' & y' & h' & -> & L1 & L2 & L3 & Z1 & Z2 & Z3 & St); [lia|lia|]. rewrite Ls in *.
  assert (forall i, (i < n)%nat -> vget i h' = h0) as Vh'. { induction i as [|i IH]; intro Hi; [exact Z3|]. destruct (St i Hi) as (Q & _). rewrite !Vk0, IH in Q by lia. replace ((0 + 0) / 2 * (vget (S i) s - vget i s)) with 0 in Q by field. lra. }
  assert (forall i, (i < n)%nat -> vget i x' = vget i x /\ vget i y' = vget i y) as Vxy.
  { induction i as [|i IH]; intro Hi; [split; assumption|]. destruct (IH ltac:(lia)) as [I1 I2]. destruct (St i Hi) as (_ & Q1 & Q2 & _). rewrite !Vh', C, I1, !Vs in Q1 by lia. rewrite !Vh', Sn, I2, !Vs in Q2 by lia. rewrite !Tx in * by lia. rewrite !Ty in * by lia. split; lra. }
  do 2 f_equal; [f_equal|]; (apply vec_ext; [rewrite ?map_length; fold n; lia|]); intros j Hj; [apply Vxy; lia|apply Vxy; lia|]. rewrite vget_map by (fold n; lia). apply Vh'. lia.
Qed.
Print Assumptions C45_straight.

(** ** circles *)
Section Circle.
Variables (r cx cy phi d : R) (n : nat).
Hypothesis (Hr : 0 < r) (Hd : 0 < d < PI) (Hn : (3 <= n)%nat).
Let x := circle_x r cx phi d n.
Let y := circle_y r cy phi d n.
Let hh := 2 * r * sin (d / 2).
Let m := cos (d / 2).
Lemma circle_facts : 0 < hh /\ 0 < m.
Proof using Hr Hd. pose proof PI_RGT_0. split; [unfold hh; assert (0 < sin (d / 2)) by (apply sin_gt_0; lra); nra|unfold m; apply cos_gt_0; lra]. Qed.
Lemma circle_get : forall i, (i < n)%nat -> vget i x = cx + r * cos (phi + INR i * d) /\ vget i y = cy + r * sin (phi + INR i * d).
Proof using. clear Hn. intros i Hi. unfold x, y, circle_x, circle_y. rewrite !vget_map_seq by exact Hi. now split. Qed.
Lemma chord : forall a, pdist (cx + r * cos a) (cy + r * sin a) (cx + r * cos (a + d)) (cy + r * sin (a + d)) = hh.
Proof using Hr Hd.
  intro a. unfold pdist. assert (cos (a + d) - cos a = -2 * sin (d / 2) * sin (a + d / 2)) as E1. { replace (a + d) with (a + d / 2 + d / 2) by field. replace a with (a + d / 2 - d / 2) at 2 by field. rewrite (cos_plus (a + d / 2)), (cos_minus (a + d / 2)). ring. }
  assert (sin (a + d) - sin a = 2 * sin (d / 2) * cos (a + d / 2)) as E2. { replace (a + d) with (a + d / 2 + d / 2) by field. replace a with (a + d / 2 - d / 2) at 2 by field. rewrite (sin_plus (a + d / 2)), (sin_minus (a + d / 2)). ring. }
  replace (cx + r * cos (a + d) - (cx + r * cos a)) with (r * (cos (a + d) - cos a)) by ring. replace (cy + r * sin (a + d) - (cy + r * sin a)) with (r * (sin (a + d) - sin a)) by ring. rewrite E1, E2.
  pose proof (sin2_cos2 (a + d / 2)) as Q. unfold Rsqr in Q. replace (r * (-2 * sin (d / 2) * sin (a + d / 2)) * (r * (-2 * sin (d / 2) * sin (a + d / 2))) + r * (2 * sin (d / 2) * cos (a + d / 2)) * (r * (2 * sin (d / 2) * cos (a + d / 2)))) with ((sin (a + d / 2) * sin (a + d / 2) + cos (a + d / 2) * cos (a + d / 2)) * (hh * hh)) by (unfold hh; ring).
  rewrite Q, Rmult_1_l. apply sqrt_square. destruct circle_facts. lra.
Qed.
Lemma circle_moving : moving x y.
Proof using Hr Hd Hn.
  unfold x, y. split; [unfold circle_x; rewrite map_length, seq_length; lia|]. split; [unfold circle_x, circle_y; now rewrite !map_length|]. unfold circle_x at 1. rewrite map_length, seq_length. intros i Hi. fold x y.
  destruct (circle_get i ltac:(lia)) as [E1 E2]. destruct (circle_get (S i) ltac:(lia)) as [E3 E4]. rewrite E1, E2, E3, E4. destruct (Req_dec (cx + r * cos (phi + INR (S i) * d)) (cx + r * cos (phi + INR i * d))) as [A|]; [|now left]. destruct (Req_dec (cy + r * sin (phi + INR (S i) * d)) (cy + r * sin (phi + INR i * d))) as [B|]; [|now right].
  exfalso. pose proof (chord (phi + INR i * d)) as C. replace (phi + INR i * d + d) with (phi + INR (S i) * d) in C by (rewrite S_INR; ring). rewrite A, B in C. destruct circle_facts as [H _]. revert C. unfold pdist. rewrite !Rminus_diag_eq by reflexivity. rewrite Rmult_0_l, Rplus_0_l, sqrt_0. lra.
Qed.
(** central differences of a rotating vector *)
Lemma central : forall f s i w, (0 < i)%nat -> (S i < n)%nat -> w <> 0 -> vget i s - vget (i - 1) s = w -> vget (S i) s - vget i s = w -> gradient_at n f s i = (vget (S i) f - vget (i - 1) f) / (2 * w).
Proof using. clear Hn. intros f s i w H0 Hi W E1 E2. unfold gradient_at. destruct (Nat.eqb_spec i 0); [lia|]. destruct (Nat.eqb_spec (S i) n); [lia|]. cbv zeta. rewrite E1, E2. field. split; [exact W|]. intro Z. apply W. lra. Qed.
Lemma circle_curv : exists s k h, cartesian_to_curvilinear x y = Ok (s, k, h) /\ (forall i, (2 <= i)%nat -> (i + 2 < n)%nat -> vget i k = 1 / r) /\ vget 0 k = cos (d / 2) / (2 * r) /\ forall i, (i < n)%nat -> vget i s = INR i * hh.
Proof using Hr Hd Hn.
  destruct circle_moving as (H2 & Ly & _). destruct (cart_ok x y Ly H2) as (s & dx & dy & d2x & d2y & k & h & E & Ls & Lk & Lh & Ldx & Ldy & Zs & Ss & Vx & Vy & Vxx & Vyy & Vk & Zh & Sh).
  assert (List.length x = n) as Lx by (unfold x, circle_x; now rewrite map_length, seq_length). rewrite Lx in *. destruct circle_facts as [Hh Hm].
  assert (forall i, (i < n)%nat -> vget i s = INR i * hh) as Vs.
  { induction i as [|i IH]; intro Hi; [rewrite Zs; cbn; ring|]. rewrite Ss, IH by lia. destruct (circle_get i ltac:(lia)) as [-> ->]. destruct (circle_get (S i) ltac:(lia)) as [-> ->]. replace (phi + INR (S i) * d) with (phi + INR i * d + d) by (rewrite S_INR; ring). rewrite chord, S_INR. ring. }
  assert (forall i, (S i < n)%nat -> vget (S i) s - vget i s = hh) as Ws by (intros i Hi; rewrite !Vs by lia; rewrite S_INR; ring).
  assert (sin d = 2 * sin (d / 2) * m) as Sd by (replace d with (2 * (d / 2)) at 1 by field; unfold m; apply sin_2a).
  assert (forall i, (0 < i)%nat -> (S i < n)%nat -> vget i s - vget (i - 1) s = hh) as Ws'. { intros i H0 Hi. replace i with (S (i - 1)) at 1 by lia. apply Ws. lia. }
  assert (forall i, (0 < i)%nat -> INR (i - 1) = INR i - 1) as P1 by (intros i Hi; rewrite minus_INR by lia; reflexivity).
  (* the first derivatives inside: m times the tangent *)
  assert (forall i, (0 < i)%nat -> (S i < n)%nat -> vget i dx = - m * sin (phi + INR i * d) /\ vget i dy = m * cos (phi + INR i * d)) as D1.
  { intros i H0 Hi. rewrite Vx, Vy by lia. rewrite !(central _ _ i hh) by (auto with real; lra). destruct (circle_get (S i) ltac:(lia)) as [-> ->]. destruct (circle_get (i - 1) ltac:(lia)) as [-> ->]. rewrite S_INR, P1 by exact H0. replace (phi + (INR i + 1) * d) with (phi + INR i * d + d) by ring. replace (phi + (INR i - 1) * d) with (phi + INR i * d - d) by ring. generalize (phi + INR i * d). intro a.
    rewrite (cos_plus a), (cos_minus a), (sin_plus a), (sin_minus a), Sd. assert (sin (d / 2) <> 0) as Ns by (intro Z; unfold hh in Hh; rewrite Z in Hh; lra). split; unfold hh; field; split; lra. }
  exists s, k, h. split; [exact E|]. split; [|split; [|exact Vs]].
  - intros i H0 Hi. rewrite Vk by lia. destruct (D1 i) as [Ex Ey]; [lia|lia|]. rewrite Vxx, Vyy by lia. rewrite !(central _ _ i hh) by (try lia; try (apply Ws; lia); try (apply Ws'; lia); lra).
    destruct (D1 (S i)) as [-> ->]; [lia|lia|]. destruct (D1 (i - 1)%nat) as [-> ->]; [lia|lia|]. rewrite Ex, Ey. rewrite S_INR, P1 by lia. set (a := phi + INR i * d). replace (phi + (INR i + 1) * d) with (a + d) by (unfold a; ring). replace (phi + (INR i - 1) * d) with (a - d) by (unfold a; ring).
    rewrite (cos_plus a), (cos_minus a), (sin_plus a), (sin_minus a). pose proof (sin2_cos2 a) as Q. unfold Rsqr in Q. unfold curv. replace (- m * sin a * (- m * sin a) + m * cos a * (m * cos a)) with ((sin a * sin a + cos a * cos a) * (m * m)) by ring. rewrite Q, Rmult_1_l, sqrt_square by lra.
    transitivity (sin d * (m * m) * (sin a * sin a + cos a * cos a) / (hh * (m * m * m))); [field; repeat split; lra|]. rewrite Q, Sd. unfold hh. assert (sin (d / 2) <> 0) as Ns by (intro Z; unfold hh in Hh; rewrite Z in Hh; lra). field. repeat split; lra.
  - rewrite Vk by lia. assert (vget 0 dx = - sin (phi + d / 2) /\ vget 0 dy = cos (phi + d / 2)) as [Ex Ey].
    { rewrite Vx, Vy by lia. unfold gradient_at. cbn [Nat.eqb]. rewrite (Ws 0%nat) by lia. destruct (circle_get 0 ltac:(lia)) as [-> ->]. destruct (circle_get 1 ltac:(lia)) as [-> ->]. cbn [INR]. replace (phi + 1 * d) with (phi + d / 2 + d / 2) by field. replace (phi + 0 * d) with (phi + d / 2 - d / 2) by field.
      rewrite (cos_plus (phi + d / 2)), (cos_minus (phi + d / 2)), (sin_plus (phi + d / 2)), (sin_minus (phi + d / 2)). assert (sin (d / 2) <> 0) as Ns by (intro Z; unfold hh in Hh; rewrite Z in Hh; lra). split; unfold hh; field; split; lra. }
    rewrite Vxx, Vyy by lia. unfold gradient_at. cbn [Nat.eqb]. rewrite (Ws 0%nat) by lia. destruct (D1 1%nat) as [-> ->]; [lia|lia|]. rewrite Ex, Ey. cbn [INR]. set (b := phi + d / 2). replace (phi + 1 * d) with (b + d / 2) by (unfold b; field). rewrite (cos_plus b), (sin_plus b). fold m.
    pose proof (sin2_cos2 b) as Q. unfold Rsqr in Q. unfold curv. replace (- sin b * - sin b + cos b * cos b) with 1 by lra. rewrite sqrt_1.
    transitivity (m * sin (d / 2) * (sin b * sin b + cos b * cos b) / hh); [field; lra|]. rewrite Q. unfold hh. assert (sin (d / 2) <> 0) as Ns by (intro Z; unfold hh in Hh; rewrite Z in Hh; lra). field. split; lra.
Qed.
End Circle.
(** Equally spaced points on a circle (counter clockwise): away from the ends the curvature is exactly the inverse of the radius. *)
Theorem C45_circle : forall r cx cy phi d n, 0 < r -> 0 < d < PI -> (3 <= n)%nat ->
  exists s k h, cartesian_to_curvilinear (circle_x r cx phi d n) (circle_y r cy phi d n) = Ok (s, k, h) /\ forall i, (2 <= i)%nat -> (i + 2 < n)%nat -> vget i k = 1 / r.
Proof. intros r cx cy phi d n Hr Hd Hn. destruct (circle_curv r cx cy phi d n Hr Hd Hn) as (s & k & h & E & K & _). exists s, k, h. now split. Qed.
Print Assumptions C45_circle.
(** ... but at the start of the track the one-sided differences give at most half of it. *)
Theorem C45_start_curvature_refuted : forall r cx cy phi d n, 0 < r -> 0 < d < PI -> (3 <= n)%nat ->
  exists s k h, cartesian_to_curvilinear (circle_x r cx phi d n) (circle_y r cy phi d n) = Ok (s, k, h) /\ vget 0 k < 1 / r / 2.
Proof.
  intros r cx cy phi d n Hr Hd Hn. destruct (circle_curv r cx cy phi d n Hr Hd Hn) as (s & k & h & E & _ & K & _). exists s, k, h. split; [exact E|]. rewrite K. pose proof PI_RGT_0.
  assert (cos (d / 2) < 1) as C by (rewrite <- cos_0; apply cos_decreasing_1; lra). assert (0 < / (2 * r)) by (apply Rinv_0_lt_compat; lra). replace (1 / r / 2) with (1 * / (2 * r)) by (field; lra). unfold Rdiv. now apply Rmult_lt_compat_r.
Qed.
Print Assumptions C45_start_curvature_refuted.

(** ** the track of constant curvature *)
Theorem C45_const_curv : forall t s, derivable_pt_lim (cc_heading_at t) s (cc_curvature_at t s) /\ cc_heading_at t 0 = cct_start_heading t /\
  cc_curvature_at t s = cct_curvature t /\ cc_half_width_at t s = cct_half_width t.
Proof. intros t s. split; [|split; [unfold cc_heading_at; ring|split; reflexivity]]. unfold cc_heading_at, cc_curvature_at. apply dlim_ext with (f := fun u => cct_curvature t * u + cct_start_heading t); [intro; ring|apply dlim_lin]. Qed.
Print Assumptions C45_const_curv.
(** it inherits the abstract methods for the distances to the sides, which return nothing *)
Theorem C45_const_curv_width_refuted : forall t s, cc_left_distance_at t s = None /\ cc_right_distance_at t s = None.
Proof. now split. Qed.

(** A track made from points keeps them, and its lookups interpolate the curvature, heading and sides computed at them, as functions of the travelled distance. *)
Theorem C45_track_from_points : forall x y left right, moving x y -> opt_len left (List.length x) -> opt_len right (List.length x) ->
  exists t s k h, from_cartesian x y left right = Ok t /\ cartesian_to_curvilinear x y = Ok (s, k, h) /\ rt_x t = x /\ rt_y t = y /\ total_distance t = Ok (vget (List.length x - 1) s) /\
  forall d, exists c e l r, curvature_at t d = Ok c /\ piecewise_linear s k d c /\ heading_at t d = Ok e /\ piecewise_linear s h d e /\
    left_distance_at t d = Ok l /\ piecewise_linear s (side left (List.length x)) d l /\ right_distance_at t d = Ok r /\ piecewise_linear s (side right (List.length x)) d r.
Proof.
  intros x y left right M Hl Hr. destruct (C45_from_points x y M) as (s & k & h & E & G & Ls & Lk & Lh & S0 & _). rewrite <- Ls in Hl, Hr.
  destruct (C45_lookups x y s k h left right G ltac:(congruence) ltac:(congruence) Hl Hr) as (t & Et & Ed & F).
  assert (map (fun v => v - vget 0 s) s = s) as Z by (rewrite S0; rewrite <- (map_id s) at 2; apply map_ext; intro v; ring).
  exists t, s, k, h. unfold from_cartesian. rewrite E. cbn [bind]. split; [exact Et|]. split; [reflexivity|].
  assert (rt_x t = x /\ rt_y t = y) as [Ex Ey].
  { clear - Et. unfold race_track_init in Et. destruct (negb _) in Et; [discriminate|]. destruct (negb _) in Et; [discriminate|]. destruct s as [|s0 s]; [discriminate|]. injection Et as <-. now split. }
  split; [exact Ex|]. split; [exact Ey|]. split; [rewrite Ed, S0, Ls; f_equal; ring|]. intro d. destruct (F d) as (c & e & l & r & D). cbv zeta in D. rewrite Z, Ls in D. exists c, e, l, r. exact D.
Qed.
Print Assumptions C45_track_from_points.
(** Fewer than two points, or different numbers of coordinates, are refused. *)
Theorem C45_points_refused : forall x y left right, (List.length x <> List.length y \/ List.length x < 2)%nat -> cartesian_to_curvilinear x y = Raise ValueError /\ from_cartesian x y left right = Raise ValueError.
Proof.
  intros x y left right H. assert (cartesian_to_curvilinear x y = Raise ValueError) as E; [|split; [exact E|unfold from_cartesian; now rewrite E]].
  unfold cartesian_to_curvilinear. destruct (Nat.eqb_spec (List.length x) (List.length y)) as [L|L]; cbn [negb]; [|reflexivity]. destruct H as [H|H]; [contradiction|].
  unfold np_gradient at 1. destruct (negb _); [reflexivity|]. apply Nat.ltb_lt in H. rewrite H. reflexivity.
Qed.
Print Assumptions C45_points_refused.
(** ** examples *)
Example C45_nonvacuous : grid [0; 1; 3] /\ (exists t, from_curvilinear [0; 1; 3] [0; 1; 3] 2 None (Some [4; 4; 6]) = Ok t /\ heading_at t 1 = Ok (2 + 1 / 2) /\ right_distance_at t 2 = Ok 5 /\ total_distance t = Ok 3) /\
  moving [0; 3; 3] [0; 4; 8] /\ 0 < 1 < PI.
Proof.
  assert (grid [0; 1; 3]) as G. { split; [cbn; lia|]. intros [|[|i]] Hi; cbn in *; unfold vget; cbn; try lra; lia. }
  split; [exact G|]. split.
  - eexists. split; [reflexivity|]. cbv -[Rplus Rmult Rminus Rdiv Ropp Rinv IZR Rlt_dec Rlt].
    repeat (match goal with |- context [Rlt_dec ?a ?b] => destruct (Rlt_dec a b); try (exfalso; lra) end). repeat split; f_equal; lra.
  - split; [|pose proof PI2_1; pose proof PI_RGT_0; lra]. split; [cbn; lia|]. split; [reflexivity|]. intros i Hi. right. destruct i as [|[|i]]; [change (4 <> 0); lra|change (8 <> 4); lra|cbn in Hi; lia].
Qed.
