(** C45 continued: the curvature, exactly. *)
From Verif Require Import Base RBase CollocProofs TrackModel TrackSpec TrackProofs TrackProps TrackProps2.
From Coq Require Import Lra Lia.

Lemma gradient_slopes : forall s f g, grid s -> List.length g = List.length s -> (forall i, (i < List.length s)%nat -> vget i g = gradient_at (List.length s) f s i) -> slopes s f g.
Proof.
  intros s f g [H2 G] Lg H. set (n := List.length s) in *. split; [exact Lg|]. split; [|split].
  - rewrite H by lia. unfold gradient_at. cbn [Nat.eqb]. pose proof (G 0%nat ltac:(lia)). field. lra.
  - fold n. rewrite H by lia. pose proof (G (n - 2)%nat ltac:(lia)) as Q. replace (S (n - 2)) with (n - 1)%nat in Q by lia. unfold gradient_at. destruct (Nat.eqb_spec (n - 1) 0); [lia|]. destruct (Nat.eqb_spec (S (n - 1)) n); [|lia].
    replace (n - 1 - 1)%nat with (n - 2)%nat by lia. field. lra.
  - fold n. intros i Hi. pose proof (G i ltac:(lia)) as G0. pose proof (G (S i) Hi) as G1. rewrite H by lia. unfold gradient_at. destruct (Nat.eqb_spec (S i) 0); [lia|]. destruct (Nat.eqb_spec (S (S i)) n); [lia|]. replace (S i - 1)%nat with i by lia. cbv zeta.
    set (s0 := vget i s) in *. set (s1 := vget (S i) s) in *. set (s2 := vget (S (S i)) s) in *. set (f0 := vget i f). set (f1 := vget (S i) f). set (f2 := vget (S (S i)) f).
    set (d1 := (f1 - f0) / (s1 - s0)). set (d2 := (f2 - f1) / (s2 - s1)). set (c := (d2 - d1) / (s2 - s0)).
    exists (f0 - d1 * s0 + c * s0 * s1), (d1 - c * (s0 + s1)), c. split.
    + intros j Hj. assert (j = i \/ j = S i \/ j = S (S i)) as [->|[->| ->]] by lia; fold s0 s1 s2 f0 f1 f2; unfold c, d1, d2; field; lra.
    + unfold c, d1, d2. field. lra.
Qed.
(** the slope of a polyline, measured by its own length, vanishes at a point only if the road turns back there *)
Lemma sq_pos : forall a, a <> 0 -> 0 < a * a. Proof. intros a H. exact (Rsqr_pos_lt a H). Qed.
Lemma sq_nn : forall a, 0 <= a * a. Proof. intro a. exact (Rle_0_sqr a). Qed.
Lemma speed_pos : forall x y s i, moving x y -> no_return x y -> List.length s = List.length x -> (forall i, (S i < List.length x)%nat -> vget (S i) s = vget i s + pdist (vget i x) (vget i y) (vget (S i) x) (vget (S i) y)) ->
  (i < List.length x)%nat -> let n := List.length x in 0 < gradient_at n x s i * gradient_at n x s i + gradient_at n y s i * gradient_at n y s i.
Proof.
  intros x y s i M NR Ls Ss Hi n. assert (grid s) as [H2 G] by (eapply moving_grid; eassumption). destruct M as (_ & Ly & M).
  assert (forall i j d, d <> 0 -> (vget j x <> vget i x \/ vget j y <> vget i y) -> 0 < (vget j x - vget i x) / d * ((vget j x - vget i x) / d) + (vget j y - vget i y) / d * ((vget j y - vget i y) / d)) as ST.
  { intros p q d Hd [E|E].
    - pose proof (sq_pos ((vget q x - vget p x) / d)) as Z. pose proof (sq_nn ((vget q y - vget p y) / d)). assert ((vget q x - vget p x) / d <> 0) by (apply Rmult_integral_contrapositive; split; [lra|now apply Rinv_neq_0_compat]). specialize (Z H0). lra.
    - pose proof (sq_pos ((vget q y - vget p y) / d)) as Z. pose proof (sq_nn ((vget q x - vget p x) / d)). assert ((vget q y - vget p y) / d <> 0) by (apply Rmult_integral_contrapositive; split; [lra|now apply Rinv_neq_0_compat]). specialize (Z H0). lra. }
  unfold gradient_at. destruct (Nat.eqb_spec i 0) as [->|N0]; [|destruct (Nat.eqb_spec (S i) n) as [En|Nn]].
  - apply ST; [pose proof (G 0%nat ltac:(lia)); lra|apply M; lia].
  - pose proof (G (i - 1)%nat ltac:(lia)) as Q. replace (S (i - 1)) with i in Q by lia. apply ST; [lra|]. pose proof (M (i - 1)%nat ltac:(lia)) as K. replace (S (i - 1)) with i in K by lia. exact K.
  - destruct i as [|i]; [lia|]. replace (S i - 1)%nat with i by lia. cbv zeta.
    pose proof (G i ltac:(lia)) as G0. pose proof (G (S i) ltac:(lia)) as G1. pose proof (Ss i ltac:(lia)) as E0. pose proof (Ss (S i) ltac:(lia)) as E1. pose proof (NR i ltac:(lia)) as K.
    set (s0 := vget i s) in *. set (s1 := vget (S i) s) in *. set (s2 := vget (S (S i)) s) in *.
    set (x0 := vget i x) in *. set (x1 := vget (S i) x) in *. set (x2 := vget (S (S i)) x) in *. set (y0 := vget i y) in *. set (y1 := vget (S i) y) in *. set (y2 := vget (S (S i)) y) in *.
    set (w1 := s1 - s0) in *. set (w2 := s2 - s1) in *. assert (0 < w1) as W1 by (unfold w1; lra). assert (0 < w2) as W2 by (unfold w2; lra).
    assert (w1 * w1 = (x1 - x0) * (x1 - x0) + (y1 - y0) * (y1 - y0)) as Q1. { replace w1 with (pdist x0 y0 x1 y1) by (unfold w1; lra). unfold pdist. apply sqrt_sqrt. pose proof (sq_nn (x1 - x0)). pose proof (sq_nn (y1 - y0)). lra. }
    assert (w2 * w2 = (x2 - x1) * (x2 - x1) + (y2 - y1) * (y2 - y1)) as Q2. { replace w2 with (pdist x1 y1 x2 y2) by (unfold w2; lra). unfold pdist. apply sqrt_sqrt. pose proof (sq_nn (x2 - x1)). pose proof (sq_nn (y2 - y1)). lra. }
    assert (forall f0 f1 f2, - w2 / (w1 * (w1 + w2)) * f0 + (w2 - w1) / (w1 * w2) * f1 + w1 / (w2 * (w1 + w2)) * f2 = (w2 * w2 * (f1 - f0) + w1 * w1 * (f2 - f1)) / (w1 * w2 * (w1 + w2))) as EG by (intros; field; lra).
    rewrite !EG. set (D := w1 * w2 * (w1 + w2)). assert (0 < D) as HD by (unfold D; apply Rmult_lt_0_compat; [apply Rmult_lt_0_compat|]; lra).
    set (A := w2 * w2 * (x1 - x0) + w1 * w1 * (x2 - x1)). set (B := w2 * w2 * (y1 - y0) + w1 * w1 * (y2 - y1)).
    replace (A / D * (A / D) + B / D * (B / D)) with ((A * A + B * B) / (D * D)) by (field; lra). apply Rdiv_lt_0_compat; [|now apply Rmult_lt_0_compat].
    destruct (Req_dec A 0) as [ZA|ZA]; [|pose proof (sq_pos A ZA); pose proof (sq_nn B); lra]. destruct (Req_dec B 0) as [ZB|ZB]; [|pose proof (sq_pos B ZB); pose proof (sq_nn A); lra]. exfalso.
    (* both vanish: the steps are opposite, and so equally long *)
    assert (w1 * w1 * (w1 * w1) * (w2 * w2) = w2 * w2 * (w2 * w2) * (w1 * w1)) as E.
    { assert (w1 * w1 * (x2 - x1) = - (w2 * w2 * (x1 - x0))) as F1 by (unfold A in ZA; lra). assert (w1 * w1 * (y2 - y1) = - (w2 * w2 * (y1 - y0))) as F2 by (unfold B in ZB; lra).
      rewrite Q2 at 1. replace (w1 * w1 * (w1 * w1) * ((x2 - x1) * (x2 - x1) + (y2 - y1) * (y2 - y1))) with ((w1 * w1 * (x2 - x1)) * (w1 * w1 * (x2 - x1)) + (w1 * w1 * (y2 - y1)) * (w1 * w1 * (y2 - y1))) by ring. rewrite F1, F2.
      replace (- (w2 * w2 * (x1 - x0)) * - (w2 * w2 * (x1 - x0)) + - (w2 * w2 * (y1 - y0)) * - (w2 * w2 * (y1 - y0))) with (w2 * w2 * (w2 * w2) * ((x1 - x0) * (x1 - x0) + (y1 - y0) * (y1 - y0))) by ring. now rewrite <- Q1. }
    assert (w1 * w1 = w2 * w2) as EW. { apply Rmult_eq_reg_r with (w1 * w1 * (w2 * w2)); [|apply Rgt_not_eq; apply Rmult_lt_0_compat; now apply Rmult_lt_0_compat]. lra. }
    assert (0 < w1 * w1) as PW by now apply Rmult_lt_0_compat. unfold A, B in *. rewrite <- EW in ZA, ZB.
    assert (x2 - x0 = 0) as X0. { apply Rmult_eq_reg_l with (w1 * w1); [|lra]. replace (w1 * w1 * (x2 - x0)) with (w1 * w1 * (x1 - x0) + w1 * w1 * (x2 - x1)) by ring. rewrite ZA. ring. }
    assert (y2 - y0 = 0) as Y0. { apply Rmult_eq_reg_l with (w1 * w1); [|lra]. replace (w1 * w1 * (y2 - y0)) with (w1 * w1 * (y1 - y0) + w1 * w1 * (y2 - y1)) by ring. rewrite ZB. ring. }
    destruct K; lra.
Qed.

(** For points of which consecutive ones differ and that never turn back onto the point before the last: distance, curvature and heading are those of the definition. *)
Theorem C45_curvilinear : forall x y, moving x y -> no_return x y -> exists s k h, cartesian_to_curvilinear x y = Ok (s, k, h) /\ curvilinear x y s k h.
Proof.
  intros x y M NR. destruct M as (H2 & Ly & Mv). assert (moving x y) as M by now repeat split.
  destruct (cart_ok x y Ly H2) as (s & dx & dy & d2x & d2y & k & h & E & Ls & Lk & Lh & Ldx & Ldy & Zs & Ss & Vx & Vy & Vxx & Vyy & Vk & Zh & Sh).
  destruct (C45_from_points x y M) as (s' & k' & h' & E' & G & _ & _ & _ & _ & SD & C0 & S0 & HH). rewrite E in E'. injection E' as <- <- <-.
  set (n := List.length x) in *.
  assert (exists ex, List.length ex = n /\ forall i, (i < n)%nat -> vget i ex = gradient_at n dx s i) as (ex & Lex & Vex). { exists (map (gradient_at n dx s) (seq 0 n)). split; [now rewrite map_length, seq_length|]. intros i Hi. now apply vget_map_seq. }
  assert (exists ey, List.length ey = n /\ forall i, (i < n)%nat -> vget i ey = gradient_at n dy s i) as (ey & Ley & Vey). { exists (map (gradient_at n dy s) (seq 0 n)). split; [now rewrite map_length, seq_length|]. intros i Hi. now apply vget_map_seq. }
  exists s, k, h. split; [exact E|]. unfold curvilinear. fold n. do 4 (split; [assumption|]). split; [exact SD|]. split; [|split; [exact C0|split; [exact S0|split; [|exact HH]]]].
  - exists dx, dy, ex, ey. rewrite <- Ls in *. split; [apply gradient_slopes; auto|]. split; [apply gradient_slopes; auto|]. split; [apply gradient_slopes; auto|]. split; [apply gradient_slopes; auto|]. intros i Hi. set (v := sqrt _).
    pose proof (speed_pos x y s i M NR Ls ltac:(intros j Hj; apply Ss; fold n in Hj; lia) ltac:(fold n; lia)) as SP. fold n in SP. rewrite <- Ls in SP. cbv zeta in SP. rewrite <- Vx, <- Vy in SP by assumption. split; [now apply sqrt_lt_R0|].
    rewrite Vk by assumption. rewrite Vxx, Vyy, <- Vex, <- Vey by assumption. unfold curv. fold v. assert (v * v = vget i dx * vget i dx + vget i dy * vget i dy) as EV by (unfold v; apply sqrt_sqrt; lra). rewrite <- EV. assert (0 < v) by now apply sqrt_lt_R0. field. lra.
  - rewrite Zh. pose proof (first_unit x y s n eq_refl H2 (Mv 0%nat ltac:(lia)) (Ss 0%nat ltac:(lia))) as U. cbv zeta in U. rewrite <- Vx, <- Vy in U by lia.
    assert (vget 0 dx <> 0 \/ vget 0 dy <> 0) as N by (destruct (Req_dec (vget 0 dx) 0) as [Q|]; [right; intro Q'; rewrite Q, Q' in U; lra|now left]). apply (arctan2_spec _ _ N).
Qed.
Print Assumptions C45_curvilinear.

(** the definition leaves no choice *)
Lemma slopes_unique : forall s f g g', grid s -> slopes s f g -> slopes s f g' -> g = g'.
Proof.
  intros s f g g' [H2 G] (L & A0 & A1 & AI) (L' & B0 & B1 & BI). apply vec_ext; [congruence|]. intros i Hi. rewrite L in Hi. set (n := List.length s) in *.
  destruct (Nat.eq_dec i 0) as [->|N0]; [pose proof (G 0%nat ltac:(lia)); apply Rmult_eq_reg_r with (vget 1 s - vget 0 s); lra|].
  destruct (Nat.eq_dec i (n - 1)) as [->|N1]. { pose proof (G (n - 2)%nat ltac:(lia)) as Q. replace (S (n - 2)) with (n - 1)%nat in Q by lia. apply Rmult_eq_reg_r with (vget (n - 1) s - vget (n - 2) s); lra. }
  destruct i as [|i]; [lia|]. pose proof (G i ltac:(lia)) as G0. pose proof (G (S i) ltac:(lia)) as G1. destruct (AI i ltac:(lia)) as (a & b & c & P & ->). destruct (BI i ltac:(lia)) as (a' & b' & c' & P' & ->).
  pose proof (P i ltac:(lia)) as P0. pose proof (P (S i) ltac:(lia)) as P1. pose proof (P (S (S i)) ltac:(lia)) as P2. pose proof (P' i ltac:(lia)) as Q0. pose proof (P' (S i) ltac:(lia)) as Q1. pose proof (P' (S (S i)) ltac:(lia)) as Q2.
  rewrite <- P0 in Q0. rewrite <- P1 in Q1. rewrite <- P2 in Q2. set (s0 := vget i s) in *. set (s1 := vget (S i) s) in *. set (s2 := vget (S (S i)) s) in *.
  assert ((b' - b) + (c' - c) * (s0 + s1) = 0) as R1. { apply Rmult_eq_reg_r with (s1 - s0); [|lra]. rewrite Rmult_0_l. transitivity ((a' + b' * s1 + c' * (s1 * s1)) - (a + b * s1 + c * (s1 * s1)) - ((a' + b' * s0 + c' * (s0 * s0)) - (a + b * s0 + c * (s0 * s0)))); [ring|lra]. }
  assert ((b' - b) + (c' - c) * (s1 + s2) = 0) as R2. { apply Rmult_eq_reg_r with (s2 - s1); [|lra]. rewrite Rmult_0_l. transitivity ((a' + b' * s2 + c' * (s2 * s2)) - (a + b * s2 + c * (s2 * s2)) - ((a' + b' * s1 + c' * (s1 * s1)) - (a + b * s1 + c * (s1 * s1)))); [ring|lra]. }
  assert (c' - c = 0) as RC. { apply Rmult_eq_reg_r with (s2 - s0); [|lra]. rewrite Rmult_0_l. transitivity (((b' - b) + (c' - c) * (s1 + s2)) - ((b' - b) + (c' - c) * (s0 + s1))); [ring|lra]. }
  rewrite RC in R1. assert (c' = c) as -> by lra. lra.
Qed.
Lemma angle_unique : forall a b, - PI < a <= PI -> - PI < b <= PI -> cos a = cos b -> sin a = sin b -> a = b.
Proof.
  intros a b Ha Hb C S. pose proof PI_RGT_0 as PP.
  assert (cos (a - b) = 1) as E. { rewrite cos_minus, C, S. pose proof (sin2_cos2 b) as Q. unfold Rsqr in Q. lra. }
  assert (sin ((a - b) / 2) = 0) as Z. { assert (cos (a - b) = 1 - 2 * sin ((a - b) / 2) * sin ((a - b) / 2)) as D by (rewrite <- cos_2a_sin; f_equal; lra). rewrite E in D. assert (sin ((a - b) / 2) * sin ((a - b) / 2) = 0) as Q by lra. apply Rmult_integral in Q. tauto. }
  destruct (Rtotal_order a b) as [L|[Q|L]]; [|exact Q|]; exfalso.
  - assert (0 < sin (- ((a - b) / 2))) as P by (apply sin_gt_0; lra). rewrite sin_neg in P. lra.
  - assert (0 < sin ((a - b) / 2)) as P by (apply sin_gt_0; lra). lra.
Qed.
Theorem C45_curvilinear_unique : forall x y s k h s' k' h', moving x y -> curvilinear x y s k h -> curvilinear x y s' k' h' -> s = s' /\ k = k' /\ h = h'.
Proof.
  intros x y s k h s' k' h' M (Ls & Lk & Lh & Z & D & (x1 & y1 & x2 & y2 & X1 & Y1 & X2 & Y2 & K) & C & S & A & H) (Ls' & Lk' & Lh' & Z' & D' & (x1' & y1' & x2' & y2' & X1' & Y1' & X2' & Y2' & K') & C' & S' & A' & H').
  set (n := List.length x) in *.
  assert (s = s') as <-. { apply vec_ext; [congruence|]. intros i. induction i as [|i IH]; intro Hi; [congruence|]. pose proof (D i ltac:(lia)). pose proof (D' i ltac:(lia)). specialize (IH ltac:(lia)). lra. }
  assert (grid s) as G. { eapply moving_grid; [exact M|exact Ls|]. intros i Hi. pose proof (D i Hi). lra. }
  assert (x1 = x1') as <- by (eapply slopes_unique; eassumption). assert (y1 = y1') as <- by (eapply slopes_unique; eassumption). assert (x2 = x2') as <- by (eapply slopes_unique; eassumption). assert (y2 = y2') as <- by (eapply slopes_unique; eassumption).
  assert (k = k') as <-. { apply vec_ext; [congruence|]. intros i Hi. rewrite Lk in Hi. destruct (K i Hi) as [P Q]. destruct (K' i Hi) as [_ Q']. cbv zeta in *. set (v := sqrt _) in *. apply Rmult_eq_reg_r with (v * v * v); [congruence|]. apply Rgt_not_eq. apply Rmult_lt_0_compat; [now apply Rmult_lt_0_compat|exact P]. }
  split; [reflexivity|]. split; [reflexivity|]. pose proof M as (H2 & _ & Mv). pose proof (pdist_pos (vget 0 x) (vget 0 y) (vget 1 x) (vget 1 y)) as PD. assert (0 < pdist (vget 0 x) (vget 0 y) (vget 1 x) (vget 1 y)) as P0. { apply PD. destruct (Mv 0%nat ltac:(lia)) as [Q|Q]; [left|right]; congruence. }
  assert (vget 0 h = vget 0 h') as E0. { apply angle_unique; [exact A|exact A'| |]; apply Rmult_eq_reg_r with (pdist (vget 0 x) (vget 0 y) (vget 1 x) (vget 1 y)); try lra; congruence. }
  apply vec_ext; [congruence|]. intros i. induction i as [|i IH]; intro Hi; [exact E0|]. specialize (IH ltac:(lia)). pose proof (H i ltac:(lia)). pose proof (H' i ltac:(lia)). lra.
Qed.
Print Assumptions C45_curvilinear_unique.
(** Where the road turns back onto the point before the last, the slopes vanish: the curvature is 0 / 0. *)
Theorem C45_return_refuted : forall s x y i x1 y1, moving x y -> (S (S i) < List.length x)%nat -> vget (S (S i)) x = vget i x -> vget (S (S i)) y = vget i y -> List.length s = List.length x ->
  (forall i, (S i < List.length x)%nat -> vget (S i) s - vget i s = pdist (vget i x) (vget i y) (vget (S i) x) (vget (S i) y)) -> slopes s x x1 -> slopes s y y1 -> vget (S i) x1 = 0 /\ vget (S i) y1 = 0.
Proof.
  intros s x y i x1 y1 M Hi Ex Ey Ls D X1 Y1. assert (grid s) as [H2 G]. { eapply moving_grid; [exact M|exact Ls|]. intros j Hj. pose proof (D j Hj). lra. }
  pose proof (G i ltac:(lia)) as G0. pose proof (G (S i) ltac:(lia)) as G1. pose proof (D i ltac:(lia)) as D0. pose proof (D (S i) Hi) as D1. rewrite Ex, Ey in D1.
  assert (vget (S (S i)) s - vget (S i) s = vget (S i) s - vget i s) as EQ. { rewrite D0, D1. unfold pdist. f_equal. ring. }
  assert (forall f g, slopes s f g -> vget (S (S i)) f = vget i f -> vget (S i) g = 0) as Q.
  { intros f g (_ & _ & _ & K) Ef. destruct (K i ltac:(lia)) as (a & b & c & P & ->). pose proof (P i ltac:(lia)) as P0. pose proof (P (S (S i)) ltac:(lia)) as P2. rewrite Ef, <- P0 in P2. set (s0 := vget i s) in *. set (s1 := vget (S i) s) in *. set (s2 := vget (S (S i)) s) in *.
    apply Rmult_eq_reg_r with (s2 - s0); [|lra]. rewrite Rmult_0_l. replace (2 * c * s1) with (c * (s0 + s2)) by (replace (s0 + s2) with (2 * s1) by lra; ring). transitivity ((a + b * s2 + c * (s2 * s2)) - (a + b * s0 + c * (s0 * s0))); [ring|lra]. }
  split; [apply (Q x)|apply (Q y)]; assumption.
Qed.
Print Assumptions C45_return_refuted.
Example C45_curvilinear_nonvacuous : moving [0; 1; 2; 2] [0; 0; 0; 1] /\ no_return [0; 1; 2; 2] [0; 0; 0; 1] /\ moving [0; 1; 0] [0; 0; 0] /\ ~ no_return [0; 1; 0] [0; 0; 0].
Proof.
  split; [|split; [|split]].
  - split; [cbn; lia|]. split; [reflexivity|]. intros [|[|[|i]]] Hi; [left; change (1 <> 0); lra|left; change (2 <> 1); lra|right; change (1 <> 0); lra|cbn in Hi; lia].
  - intros [|[|i]] Hi; [left; change (2 <> 0); lra|left; change (2 <> 1); lra|cbn in Hi; lia].
  - split; [cbn; lia|]. split; [reflexivity|]. intros [|[|i]] Hi; [left; change (1 <> 0); lra|left; change (0 <> 1); lra|cbn in Hi; lia].
  - intro H. destruct (H 0%nat ltac:(cbn; lia)) as [Q|Q]; apply Q; reflexivity.
Qed.
