(** C45 continued: tracks from points in the plane. *)
From Verif Require Import Base RBase CollocProofs TrackModel TrackSpec TrackProofs TrackProps.
From Coq Require Import Lra Lia.

Lemma vadd_len : forall a b, List.length a = List.length b -> List.length (vadd a b) = List.length a. Proof. intros. unfold vadd. now apply map2_length. Qed.
Lemma vsub_len : forall a b, List.length a = List.length b -> List.length (vsub a b) = List.length a. Proof. intros. unfold vsub. now apply map2_length. Qed.
Lemma gradient_ok : forall f s, List.length f = List.length s -> (2 <= List.length f)%nat -> np_gradient f s = Ok (map (gradient_at (List.length f) f s) (seq 0 (List.length f))).
Proof. intros f s E H. unfold np_gradient. rewrite E, Nat.eqb_refl. cbn [negb]. rewrite <- E. destruct (Nat.ltb_spec (List.length f) 2); [lia|reflexivity]. Qed.
Definition curv (dx dy d2x d2y : R) : R := (dx * d2y - d2x * dy) / ((dx * dx + dy * dy) * sqrt (dx * dx + dy * dy)).
Lemma cart_ok : forall x y, List.length y = List.length x -> (2 <= List.length x)%nat -> let n := List.length x in
  exists s dx dy d2x d2y k h, cartesian_to_curvilinear x y = Ok (s, k, h) /\ List.length s = n /\ List.length k = n /\ List.length h = n /\ List.length dx = n /\ List.length dy = n /\
    vget 0 s = 0 /\ (forall i, (S i < n)%nat -> vget (S i) s = vget i s + pdist (vget i x) (vget i y) (vget (S i) x) (vget (S i) y)) /\
    (forall i, (i < n)%nat -> vget i dx = gradient_at n x s i) /\ (forall i, (i < n)%nat -> vget i dy = gradient_at n y s i) /\
    (forall i, (i < n)%nat -> vget i d2x = gradient_at n dx s i) /\ (forall i, (i < n)%nat -> vget i d2y = gradient_at n dy s i) /\
    (forall i, (i < n)%nat -> vget i k = curv (vget i dx) (vget i dy) (vget i d2x) (vget i d2y)) /\
    vget 0 h = arctan2 (vget 0 dy) (vget 0 dx) /\ forall i, (S i < n)%nat -> vget (S i) h = vget i h + (vget i k + vget (S i) k) / 2 * (vget (S i) s - vget i s).
Proof.
  intros x y E H n. unfold cartesian_to_curvilinear. rewrite E, Nat.eqb_refl. cbn [negb].
  set (ds := map sqrt _). assert (List.length ds = (n - 1)%nat) as Ld by (unfold ds; rewrite map_length, vadd_len; rewrite !map_length, !diff1_len; [|rewrite E]; reflexivity).
  assert (forall i, (S i < n)%nat -> vget i ds = pdist (vget i x) (vget i y) (vget (S i) x) (vget (S i) y)) as Vd.
  { intros i Hi. unfold ds. rewrite vget_map; [|rewrite vadd_len; rewrite !map_length, !diff1_len; [fold n; lia|now rewrite E]]. unfold vadd. rewrite vget_map2; [|rewrite !map_length, !diff1_len; now rewrite E|rewrite !map_length, !diff1_len; fold n; lia].
    rewrite !vget_map by (rewrite diff1_len; fold n in E; fold n; lia). rewrite !diff1_get by (fold n in E; fold n; lia). reflexivity. }
  set (s := cumsum (0 :: ds)). assert (List.length s = n) as Ls by (unfold s; rewrite cumsum0_len; lia).
  rewrite gradient_ok by (fold n; lia). fold n. cbn [bind]. set (dx := map (gradient_at n x s) (seq 0 n)). assert (List.length dx = n) as Ldx by (unfold dx; now rewrite map_length, seq_length).
  rewrite gradient_ok by (fold n in E; lia). fold n in E. rewrite E. cbn [bind]. set (dy := map (gradient_at n y s) (seq 0 n)). assert (List.length dy = n) as Ldy by (unfold dy; now rewrite map_length, seq_length).
  rewrite !gradient_ok by lia. rewrite Ldx, Ldy. cbn [bind]. set (d2x := map (gradient_at n dx s) (seq 0 n)). assert (List.length d2x = n) as Ld2x by (unfold d2x; now rewrite map_length, seq_length).
  set (d2y := map (gradient_at n dy s) (seq 0 n)). assert (List.length d2y = n) as Ld2y by (unfold d2y; now rewrite map_length, seq_length).
  set (k := vdiv _ _). assert (List.length (vadd (vmul dx dx) (vmul dy dy)) = n) as L1 by (rewrite vadd_len; rewrite !vmul_length; lia). assert (List.length (vsub (vmul dx d2y) (vmul d2x dy)) = n) as L2 by (rewrite vsub_len; rewrite !vmul_length; lia).
  assert (List.length k = n) as Lk by (unfold k; rewrite vdiv_length; rewrite ?map_length; lia).
  destruct (trapz_ok k s) as (q & Eq & Lq & Zq & Sq); [lia|lia|]. rewrite Eq. cbn [bind]. exists s, dx, dy, d2x, d2y, k. eexists. split; [reflexivity|]. rewrite map_length. do 5 (split; [lia|]).
  split; [apply cumsum0_0|]. split; [intros i Hi; unfold s; rewrite cumsum0_step by lia; now rewrite Vd|].
  split; [intros; now apply vget_map_seq|]. split; [intros; now apply vget_map_seq|]. split; [intros; now apply vget_map_seq|]. split; [intros; now apply vget_map_seq|].
  split; [|split].
  - intros i Hi. unfold k. rewrite vget_vdiv by (rewrite ?map_length; lia). rewrite vget_map by lia. unfold vadd, vsub. rewrite !vget_map2 by (rewrite !vmul_length; lia). rewrite !vget_vmul by lia. reflexivity.
  - rewrite vget_map by lia. rewrite Zq. ring.
  - intros i Hi. rewrite !vget_map by lia. rewrite Sq by lia. ring.
Qed.
(** the distances along the polyline *)
Lemma pdist_pos : forall a b c d, a <> c \/ b <> d -> 0 < pdist a b c d.
Proof. intros a b c d N. apply sqrt_lt_R0. pose proof (Rle_0_sqr (c - a)) as Q1. pose proof (Rle_0_sqr (d - b)) as Q2. destruct N as [N|N]; [pose proof (Rsqr_pos_lt (c - a) ltac:(lra)) as Q|pose proof (Rsqr_pos_lt (d - b) ltac:(lra)) as Q]; unfold Rsqr in *; lra. Qed.
Lemma moving_grid : forall x y s, moving x y -> List.length s = List.length x -> (forall i, (S i < List.length x)%nat -> vget (S i) s = vget i s + pdist (vget i x) (vget i y) (vget (S i) x) (vget (S i) y)) -> grid s.
Proof. intros x y s (H2 & _ & M) Ls Ss. split; [lia|]. rewrite Ls. intros i Hi. rewrite Ss by exact Hi. pose proof (pdist_pos (vget i x) (vget i y) (vget (S i) x) (vget (S i) y)). destruct (M i Hi); [assert (vget i x <> vget (S i) x \/ vget i y <> vget (S i) y) by (left; congruence)|assert (vget i x <> vget (S i) x \/ vget i y <> vget (S i) y) by (right; congruence)]; intuition lra. Qed.
Lemma gradient_lin : forall n f g e s a b t i, grid s -> List.length s = n -> (i < n)%nat -> (forall j, (j < n)%nat -> vget j e = t + (a * vget j f + b * vget j g)) ->
  gradient_at n e s i = a * gradient_at n f s i + b * gradient_at n g s i.
Proof.
  intros n f g e s a b t i [H2 G] Ls Hi He. unfold gradient_at. destruct (Nat.eqb_spec i 0) as [->|N0].
  - rewrite !He by lia. pose proof (G 0%nat ltac:(lia)). field. lra.
  - pose proof (G (i - 1)%nat ltac:(lia)) as G1. replace (S (i - 1)) with i in G1 by lia. destruct (Nat.eqb_spec (S i) n) as [En|Nn].
    + rewrite !He by lia. field. lra.
    + rewrite !He by lia. pose proof (G i ltac:(lia)) as G2. cbv zeta. field. repeat split; lra.
Qed.
Lemma first_unit : forall x y s n, List.length x = n -> (2 <= n)%nat -> (vget 1 x <> vget 0 x \/ vget 1 y <> vget 0 y) -> vget 1 s = vget 0 s + pdist (vget 0 x) (vget 0 y) (vget 1 x) (vget 1 y) ->
  let dx := gradient_at n x s 0 in let dy := gradient_at n y s 0 in dx * dx + dy * dy = 1.
Proof.
  intros x y s n Lx H2 N Hs. unfold gradient_at. cbn [Nat.eqb]. cbv zeta. rewrite Hs. replace (vget 0 s + pdist (vget 0 x) (vget 0 y) (vget 1 x) (vget 1 y) - vget 0 s) with (pdist (vget 0 x) (vget 0 y) (vget 1 x) (vget 1 y)) by ring.
  assert (0 < pdist (vget 0 x) (vget 0 y) (vget 1 x) (vget 1 y)) as P by (apply pdist_pos; destruct N; [left|right]; congruence). set (p := pdist _ _ _ _) in *.
  assert (p * p = (vget 1 x - vget 0 x) * (vget 1 x - vget 0 x) + (vget 1 y - vget 0 y) * (vget 1 y - vget 0 y)) as Ep by (unfold p, pdist; apply sqrt_sqrt; pose proof (Rle_0_sqr (vget 1 x - vget 0 x)) as Q1; pose proof (Rle_0_sqr (vget 1 y - vget 0 y)) as Q2; unfold Rsqr in *; lra).
  replace ((vget 1 x - vget 0 x) / p * ((vget 1 x - vget 0 x) / p) + (vget 1 y - vget 0 y) / p * ((vget 1 y - vget 0 y) / p)) with (((vget 1 x - vget 0 x) * (vget 1 x - vget 0 x) + (vget 1 y - vget 0 y) * (vget 1 y - vget 0 y)) / (p * p)) by (field; lra). rewrite <- Ep. field. lra.
Qed.
Lemma arctan2_unit : forall c s, c * c + s * s = 1 -> cos (arctan2 s c) = c /\ sin (arctan2 s c) = s.
Proof. intros c s E. assert (c <> 0 \/ s <> 0) as N by (destruct (Req_dec c 0) as [->|]; [right; intros ->; lra|now left]). destruct (arctan2_spec c s N) as (_ & C & S & _). rewrite E, sqrt_1 in C, S. lra. Qed.

(** The distance is the length of the polyline, and it increases strictly when consecutive points differ; the first heading is the direction of the first step. *)
Theorem C45_from_points : forall x y, moving x y -> exists s k h, cartesian_to_curvilinear x y = Ok (s, k, h) /\ grid s /\ List.length s = List.length x /\ List.length k = List.length x /\ List.length h = List.length x /\
  vget 0 s = 0 /\ (forall i, (S i < List.length x)%nat -> vget (S i) s - vget i s = pdist (vget i x) (vget i y) (vget (S i) x) (vget (S i) y)) /\
  cos (vget 0 h) * pdist (vget 0 x) (vget 0 y) (vget 1 x) (vget 1 y) = vget 1 x - vget 0 x /\ sin (vget 0 h) * pdist (vget 0 x) (vget 0 y) (vget 1 x) (vget 1 y) = vget 1 y - vget 0 y /\
  forall i, (S i < List.length x)%nat -> vget (S i) h - vget i h = (vget i k + vget (S i) k) / 2 * (vget (S i) s - vget i s).
Proof.
  intros x y M. destruct M as (H2 & Ly & Mv). assert (moving x y) as M by now repeat split. destruct (cart_ok x y Ly H2) as (s & dx & dy & d2x & d2y & k & h & E & Ls & Lk & Lh & Ldx & Ldy & Zs & Ss & Vx & Vy & _ & _ & _ & Zh & Sh).
  exists s, k, h. assert (grid s) as G by (eapply moving_grid; eassumption). split; [exact E|]. split; [exact G|]. do 3 (split; [assumption|]). split; [exact Zs|]. split; [intros i Hi; rewrite Ss by exact Hi; ring|].
  pose proof (first_unit x y s (List.length x) eq_refl H2 (Mv 0%nat ltac:(lia)) (Ss 0%nat ltac:(lia))) as U. cbv zeta in U. rewrite <- Vx, <- Vy in U by lia. destruct (arctan2_unit _ _ U) as [C S]. rewrite <- Zh in C, S. rewrite C, S, Vx, Vy by lia. unfold gradient_at. cbn [Nat.eqb]. pose proof (proj2 G 0%nat ltac:(lia)) as G0.
  rewrite (Ss 0%nat) in * by lia. replace (vget 0 s + pdist (vget 0 x) (vget 0 y) (vget 1 x) (vget 1 y) - vget 0 s) with (pdist (vget 0 x) (vget 0 y) (vget 1 x) (vget 1 y)) by ring. split; [field; lra|]. split; [field; lra|]. intros i Hi. rewrite Sh by exact Hi. ring.
Qed.
Print Assumptions C45_from_points.

(** ** moving and scaling the map *)
Lemma turned_get : forall a t x y i, List.length y = List.length x -> (i < List.length x)%nat -> vget i (turned_x a t x y) = t + (cos a * vget i x + - sin a * vget i y) /\ vget i (turned_y a t x y) = t + (sin a * vget i x + cos a * vget i y).
Proof. intros. unfold turned_x, turned_y. rewrite !vget_map2 by lia. split; ring. Qed.
(** Rotating and shifting the map changes neither the distances nor the curvatures, and turns every heading by the angle of the rotation. *)
Theorem C45_rigid_motion : forall x y a tx ty, moving x y -> exists s k h h',
  cartesian_to_curvilinear x y = Ok (s, k, h) /\ cartesian_to_curvilinear (turned_x a tx x y) (turned_y a ty x y) = Ok (s, k, h') /\
  forall i, (i < List.length x)%nat -> cos (vget i h') = cos (vget i h + a) /\ sin (vget i h') = sin (vget i h + a).
Proof.
  intros x y a tx ty M. destruct M as (H2 & Ly & Mv). assert (moving x y) as M by now repeat split. destruct (cart_ok x y Ly H2) as (s & dx & dy & d2x & d2y & k & h & E & Ls & Lk & Lh & Ldx & Ldy & Zs & Ss & Vx & Vy & Vxx & Vyy & Vk & Zh & Sh).
  set (n := List.length x) in *. assert (List.length (turned_x a tx x y) = n) as Lx' by (unfold turned_x; now rewrite map2_length). assert (List.length (turned_y a ty x y) = n) as Ly' by (unfold turned_y; now rewrite map2_length).
  destruct (cart_ok (turned_x a tx x y) (turned_y a ty x y)) as (s' & dx' & dy' & d2x' & d2y' & k' & h' & E' & Ls' & Lk' & Lh' & Ldx' & Ldy' & Zs' & Ss' & Vx' & Vy' & Vxx' & Vyy' & Vk' & Zh' & Sh'); [now rewrite Lx'|rewrite Lx'; exact H2|]. rewrite Lx' in *.
  pose proof (sin2_cos2 a) as Qa. unfold Rsqr in Qa. assert (grid s) as G by (eapply moving_grid; eassumption).
  assert (forall i, (i < n)%nat -> vget i (turned_x a tx x y) = tx + (cos a * vget i x + - sin a * vget i y)) as Tx by (intros; now apply (turned_get a tx)). assert (forall i, (i < n)%nat -> vget i (turned_y a ty x y) = ty + (sin a * vget i x + cos a * vget i y)) as Ty by (intros; now apply (turned_get a ty)).
  assert (s' = s) as ->.
  { apply vec_ext; [lia|]. intros j. rewrite Ls'. induction j as [|j IH]; intro Hj; [now rewrite Zs, Zs'|]. rewrite Ss', Ss, IH by lia. f_equal. unfold pdist. f_equal. rewrite !Tx, !Ty by lia.
    set (p := vget j x). set (q := vget (S j) x). set (u := vget j y). set (v := vget (S j) y). replace ((q - p) * (q - p) + (v - u) * (v - u)) with ((sin a * sin a + cos a * cos a) * ((q - p) * (q - p) + (v - u) * (v - u))) by (rewrite Qa; ring). ring. }
  assert (forall i, (i < n)%nat -> vget i dx' = cos a * vget i dx + - sin a * vget i dy) as Dx by (intros i Hi; rewrite Vx', Vx, Vy by exact Hi; eapply gradient_lin; eassumption).
  assert (forall i, (i < n)%nat -> vget i dy' = sin a * vget i dx + cos a * vget i dy) as Dy by (intros i Hi; rewrite Vy', Vx, Vy by exact Hi; eapply gradient_lin; eassumption).
  assert (forall i, (i < n)%nat -> vget i d2x' = cos a * vget i d2x + - sin a * vget i d2y) as D2x by (intros i Hi; rewrite Vxx', Vxx, Vyy by exact Hi; eapply (gradient_lin _ _ _ _ _ _ _ 0); try eassumption; intros j Hj; rewrite Dx by exact Hj; ring).
  assert (forall i, (i < n)%nat -> vget i d2y' = sin a * vget i d2x + cos a * vget i d2y) as D2y by (intros i Hi; rewrite Vyy', Vxx, Vyy by exact Hi; eapply (gradient_lin _ _ _ _ _ _ _ 0); try eassumption; intros j Hj; rewrite Dy by exact Hj; ring).
  assert (k' = k) as ->.
  { apply vec_ext; [lia|]. intros j. rewrite Lk'. intro Hj. rewrite Vk', Vk, Dx, Dy, D2x, D2y by exact Hj. unfold curv. set (p := vget j dx). set (q := vget j dy). set (u := vget j d2x). set (v := vget j d2y).
    replace ((cos a * p + - sin a * q) * (cos a * p + - sin a * q) + (sin a * p + cos a * q) * (sin a * p + cos a * q)) with ((sin a * sin a + cos a * cos a) * (p * p + q * q)) by ring.
    replace ((cos a * p + - sin a * q) * (sin a * u + cos a * v) - (cos a * u + - sin a * v) * (sin a * p + cos a * q)) with ((sin a * sin a + cos a * cos a) * (p * v - u * q)) by ring. rewrite Qa, !Rmult_1_l. reflexivity. }
  exists s, k, h, h'. split; [exact E|]. split; [exact E'|].
  pose proof (first_unit x y s n eq_refl H2 (Mv 0%nat ltac:(lia)) (Ss 0%nat ltac:(lia))) as U. cbv zeta in U. rewrite <- Vx, <- Vy in U by lia. destruct (arctan2_unit _ _ U) as [C S]. rewrite <- Zh in C, S.
  assert (vget 0 dx' * vget 0 dx' + vget 0 dy' * vget 0 dy' = 1) as U'. { rewrite Dx, Dy by lia. replace ((cos a * vget 0 dx + - sin a * vget 0 dy) * (cos a * vget 0 dx + - sin a * vget 0 dy) + (sin a * vget 0 dx + cos a * vget 0 dy) * (sin a * vget 0 dx + cos a * vget 0 dy)) with ((sin a * sin a + cos a * cos a) * (vget 0 dx * vget 0 dx + vget 0 dy * vget 0 dy)) by ring. rewrite Qa, U. ring. }
  destruct (arctan2_unit _ _ U') as [C' S']. rewrite <- Zh' in C', S'. rewrite Dx in C' by lia. rewrite Dy in S' by lia.
  assert (forall i, (i < n)%nat -> vget i h' - vget 0 h' = vget i h - vget 0 h) as Dh. { induction i as [|i IH]; intro Hi; [ring|]. rewrite Sh, Sh' by exact Hi. specialize (IH ltac:(lia)). lra. }
  intros i Hi. specialize (Dh i Hi). assert (vget i h' = vget 0 h' + (vget i h - vget 0 h)) as -> by lra. set (w := vget i h - vget 0 h) in *. replace (vget i h + a) with (vget 0 h + a + w) by (unfold w; ring).
  rewrite (cos_plus (vget 0 h') w), (sin_plus (vget 0 h') w), (cos_plus (vget 0 h + a) w), (sin_plus (vget 0 h + a) w), (cos_plus (vget 0 h) a), (sin_plus (vget 0 h) a), C, S, C', S'. split; ring.
Qed.
Print Assumptions C45_rigid_motion.

(** A map drawn c times larger has c times the distances, the c-th part of the curvatures and the same headings. *)
Lemma arctan2_scale : forall c x y, 0 < c -> arctan2 (c * y) (c * x) = arctan2 y x.
Proof.
  intros c x y Hc. unfold arctan2. destruct (Rlt_dec 0 x) as [X|X].
  - destruct (Rlt_dec 0 (c * x)) as [|N]; [|exfalso; apply N; now apply Rmult_lt_0_compat]. f_equal. field. lra.
  - destruct (Rlt_dec 0 (c * x)) as [P|_]; [exfalso; nra|]. destruct (Rlt_dec x 0) as [X'|X'].
    + destruct (Rlt_dec (c * x) 0) as [_|N]; [|exfalso; nra]. replace (c * y / (c * x)) with (y / x) by (field; lra). destruct (Rle_dec 0 y), (Rle_dec 0 (c * y)); try reflexivity; exfalso; nra.
    + destruct (Rlt_dec (c * x) 0) as [P|_]; [exfalso; nra|]. destruct (Rlt_dec 0 y), (Rlt_dec 0 (c * y)); try reflexivity; try (exfalso; nra). destruct (Rlt_dec y 0), (Rlt_dec (c * y) 0); try reflexivity; exfalso; nra.
Qed.
Lemma gradient_scale : forall n f e s s' a c i, grid s -> List.length s = n -> 0 < c -> (i < n)%nat -> (forall j, (j < n)%nat -> vget j e = a * vget j f) -> (forall j, (j < n)%nat -> vget j s' = c * vget j s) ->
  gradient_at n e s' i = a / c * gradient_at n f s i.
Proof.
  intros n f e s s' a c i [H2 G] Ls Hc Hi He Hs. unfold gradient_at. destruct (Nat.eqb_spec i 0) as [->|N0].
  - rewrite !He, !Hs by lia. pose proof (G 0%nat ltac:(lia)). field. split; [lra|split; [lra|nra]].
  - pose proof (G (i - 1)%nat ltac:(lia)) as G1. replace (S (i - 1)) with i in G1 by lia. destruct (Nat.eqb_spec (S i) n) as [En|Nn].
    + rewrite !He, !Hs by lia. field. split; [lra|split; [lra|nra]].
    + rewrite !He, !Hs by lia. pose proof (G i ltac:(lia)) as G2. cbv zeta. replace (c * vget i s - c * vget (i - 1) s) with (c * (vget i s - vget (i - 1) s)) by ring. replace (c * vget (S i) s - c * vget i s) with (c * (vget (S i) s - vget i s)) by ring.
      set (u := vget i s - vget (i - 1) s) in *. set (v := vget (S i) s - vget i s) in *. assert (0 < u) by (unfold u; lra). assert (0 < v) by (unfold v; lra). replace (c * u + c * v) with (c * (u + v)) by ring. field. repeat split; try lra; nra.
Qed.
Theorem C45_scale : forall x y c, moving x y -> 0 < c -> exists s k h, cartesian_to_curvilinear x y = Ok (s, k, h) /\
  cartesian_to_curvilinear (map (Rmult c) x) (map (Rmult c) y) = Ok (map (Rmult c) s, map (fun v => v / c) k, h).
Proof.
  intros x y c M Hc. destruct M as (H2 & Ly & Mv). assert (moving x y) as M by now repeat split. destruct (cart_ok x y Ly H2) as (s & dx & dy & d2x & d2y & k & h & E & Ls & Lk & Lh & Ldx & Ldy & Zs & Ss & Vx & Vy & Vxx & Vyy & Vk & Zh & Sh).
  set (n := List.length x) in *. assert (List.length (map (Rmult c) x) = n) as Lx' by apply map_length. assert (List.length (map (Rmult c) y) = n) as Ly' by (now rewrite map_length).
  destruct (cart_ok (map (Rmult c) x) (map (Rmult c) y)) as (s' & dx' & dy' & d2x' & d2y' & k' & h' & E' & Ls' & Lk' & Lh' & Ldx' & Ldy' & Zs' & Ss' & Vx' & Vy' & Vxx' & Vyy' & Vk' & Zh' & Sh'); [now rewrite Lx'|rewrite Lx'; exact H2|]. rewrite Lx' in *. fold n in Ss', Vx', Vy', Vxx', Vyy', Vk', Sh'.
  assert (grid s) as G by (eapply moving_grid; eassumption).
  assert (forall j, (j < n)%nat -> vget j s' = c * vget j s) as Vs.
  { induction j as [|j IH]; intro Hj; [rewrite Zs, Zs'; ring|]. rewrite Ss', Ss, IH by lia. rewrite Rmult_plus_distr_l. f_equal. unfold pdist. rewrite !vget_map by lia.
    set (p := vget j x). set (q := vget (S j) x). set (u := vget j y). set (v := vget (S j) y). replace ((c * q - c * p) * (c * q - c * p) + (c * v - c * u) * (c * v - c * u)) with (c * c * ((q - p) * (q - p) + (v - u) * (v - u))) by ring. rewrite sqrt_mult_alt by nra. rewrite sqrt_square by lra. reflexivity. }
  assert (s' = map (Rmult c) s) as -> by (apply vec_ext; [rewrite map_length; lia|]; intros j Hj; rewrite vget_map by lia; apply Vs; lia).
  assert (forall i, (i < n)%nat -> vget i dx' = 1 * vget i dx) as Dx. { intros i Hi. rewrite Vx', Vx by exact Hi. replace 1 with (c / c) by (field; lra). eapply gradient_scale; try eassumption. intros j Hj. now rewrite vget_map. }
  assert (forall i, (i < n)%nat -> vget i dy' = 1 * vget i dy) as Dy. { intros i Hi. rewrite Vy', Vy by exact Hi. replace 1 with (c / c) by (field; lra). eapply gradient_scale; try eassumption. intros j Hj. rewrite vget_map by lia. reflexivity. }
  assert (forall i, (i < n)%nat -> vget i d2x' = 1 / c * vget i d2x) as D2x by (intros i Hi; rewrite Vxx', Vxx by exact Hi; eapply gradient_scale; eassumption).
  assert (forall i, (i < n)%nat -> vget i d2y' = 1 / c * vget i d2y) as D2y by (intros i Hi; rewrite Vyy', Vyy by exact Hi; eapply gradient_scale; eassumption).
  assert (forall j, (j < n)%nat -> vget j k' = vget j k / c) as Vkk. { intros j Hj. rewrite Vk', Vk, Dx, Dy, D2x, D2y by exact Hj. unfold curv. rewrite !Rmult_1_l. unfold Rdiv. rewrite !Rmult_1_l. ring. }
  assert (k' = map (fun v => v / c) k) as -> by (apply vec_ext; [rewrite map_length; lia|]; intros j Hj; rewrite vget_map by lia; apply Vkk; lia).
  assert (h' = h) as ->. { apply vec_ext; [lia|]. intros j. rewrite Lh'. induction j as [|j IH]; intro Hj; [rewrite Zh, Zh', Dx, Dy, !Rmult_1_l by lia; reflexivity|]. rewrite Sh', Sh, IH, !Vkk, !Vs by lia. field. lra. }
  exists s, k, h. now split.
Qed.
Print Assumptions C45_scale.
