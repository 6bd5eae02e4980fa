(** C45: tracks. *)
From Verif Require Import Base RBase CollocProofs TrackModel TrackSpec TrackProofs.
From Coq Require Import Lra Lia.

(** ** running integrals *)
(** _trapz needs arrays of the same length and returns the running sum of the areas of the trapezoids *)
Theorem C45_trapz : forall y x, (1 <= List.length y)%nat ->
  (List.length y = List.length x -> exists t, trapz y x = Ok t /\ List.length t = List.length y /\ vget 0 t = 0 /\
     forall i, (S i < List.length y)%nat -> vget (S i) t - vget i t = (vget i y + vget (S i) y) / 2 * (vget (S i) x - vget i x)) /\
  (List.length y <> List.length x -> trapz y x = Raise ValueError).
Proof.
  intros y x H1. split; intro E.
  - destruct (trapz_ok y x E H1) as (t & E1 & L & Z & S). exists t. repeat split; try assumption. intros i Hi. rewrite S by exact Hi. ring.
  - unfold trapz. destruct (Nat.eqb_spec (List.length y) (List.length x)); [contradiction|reflexivity].
Qed.
Print Assumptions C45_trapz.

(** ** lookups *)
Definition opt_len (o : option (list R)) (n : nat) : Prop := match o with Some l => List.length l = n | None => True end.
Definition side (o : option (list R)) (n : nat) : list R := match o with Some l => l | None => repeat 5 n end.
Lemma ones5 : forall s : list R, map (fun _ => 1 * 5) s = repeat 5 (List.length s).
Proof. induction s as [|a s IH]; [reflexivity|]. cbn. rewrite IH. f_equal. ring. Qed.
Lemma side_len : forall o n, opt_len o n -> List.length (side o n) = n.
Proof. intros [l|] n H; [exact H|apply repeat_length]. Qed.

(** A race track answers every lookup by linear interpolation in the distance from its first sample, and with the first or last value outside. *)
Theorem C45_lookups : forall x y s curvature heading left right, grid s -> List.length curvature = List.length s -> List.length heading = List.length s ->
  opt_len left (List.length s) -> opt_len right (List.length s) ->
  exists t, race_track_init x y s curvature heading left right = Ok t /\ total_distance t = Ok (vget (List.length s - 1) s - vget 0 s) /\
  forall d, exists c h l r, let s0 := map (fun v => v - vget 0 s) s in
    curvature_at t d = Ok c /\ piecewise_linear s0 curvature d c /\ heading_at t d = Ok h /\ piecewise_linear s0 heading d h /\
    left_distance_at t d = Ok l /\ piecewise_linear s0 (side left (List.length s)) d l /\ right_distance_at t d = Ok r /\ piecewise_linear s0 (side right (List.length s)) d r.
Proof.
  intros x y s curvature heading left right G Ec Eh Hl Hr. pose proof (proj1 G) as H2. unfold race_track_init. rewrite !ones5. fold (side left (List.length s)) (side right (List.length s)).
  rewrite (side_len _ _ Hl), (side_len _ _ Hr), Ec, Nat.eqb_refl. cbn [negb]. destruct s as [|s0 s]; [cbn in H2; lia|]. eexists. split; [reflexivity|]. split.
  - unfold total_distance. cbn [rt_s]. assert (exists a r, rev (map (fun v => v - s0) (s0 :: s)) = a :: r) as (a & r & Er). { destruct (rev (map (fun v => v - s0) (s0 :: s))) as [|a r] eqn:E; [|now exists a, r]. apply (f_equal (@List.length R)) in E. rewrite rev_length, map_length in E. discriminate. }
    rewrite Er. f_equal. assert (vget 0 (rev (map (fun v => v - s0) (s0 :: s))) = a) as Ha by now rewrite Er. unfold vget in Ha. rewrite rev_nth in Ha by (rewrite map_length; cbn; lia). rewrite map_length in Ha. rewrite <- Ha.
    fold (vget (List.length (s0 :: s) - 1) (map (fun v => v - s0) (s0 :: s))). rewrite vget_map by (cbn; lia). reflexivity.
  - intro d. change (vget 0 (s0 :: s)) with s0. set (g := map (fun v => v - s0) (s0 :: s)). assert (grid g) as Gg by now apply grid_shift. assert (List.length g = List.length (s0 :: s)) as Lg by apply map_length.
    destruct (np_interp_ok d g curvature Gg) as (c & E1 & P1); [now rewrite Lg|]. destruct (np_interp_ok d g heading Gg) as (h & E2 & P2); [now rewrite Lg|].
    destruct (np_interp_ok d g (side left (List.length (s0 :: s))) Gg) as (l & E3 & P3); [rewrite Lg; now apply side_len|]. destruct (np_interp_ok d g (side right (List.length (s0 :: s))) Gg) as (r & E4 & P4); [rewrite Lg; now apply side_len|].
    exists c, h, l, r. cbv zeta. repeat split; first [exact E1|exact E2|exact E3|exact E4|apply P1|apply P2|apply P3|apply P4].
Qed.
Print Assumptions C45_lookups.
(** with no distances given, both sides are 5 m away everywhere *)
Theorem C45_default_width : forall x y s curvature heading t d, grid s -> List.length curvature = List.length s -> List.length heading = List.length s ->
  race_track_init x y s curvature heading None None = Ok t -> left_distance_at t d = Ok 5 /\ right_distance_at t d = Ok 5.
Proof.
  intros x y s curvature heading t d G Ec Eh Et. destruct (C45_lookups x y s curvature heading None None G Ec Eh I I) as (t' & Et' & _ & H). rewrite Et in Et'. injection Et' as <-.
  destruct (H d) as (c & h & l & r & _ & _ & _ & _ & -> & Pl & -> & Pr). cbv zeta in *. cbn [side] in *.
  assert (forall z, piecewise_linear (map (fun v => v - vget 0 s) s) (repeat 5 (List.length s)) d z -> z = 5) as F; [|now rewrite (F _ Pl), (F _ Pr)].
  intros z P. eapply pl_unique; [apply grid_shift, G|exact P|]. assert (forall i, (i < List.length s)%nat -> vget i (repeat 5 (List.length s)) = 5) as R5. { intros i Hi. unfold vget. apply (repeat_spec (List.length s)), nth_In. now rewrite repeat_length. }
  pose proof (proj1 G). split; [|split]; rewrite ?map_length; intros; rewrite !R5 by lia; [reflexivity|reflexivity|ring].
Qed.
Print Assumptions C45_default_width.

(** ** curvature to heading to position *)
(** The heading at the samples is the integral of the track's own curvature function. *)
Theorem C45_heading_is_integral : forall s curvature heading0 left right t, grid s -> List.length curvature = List.length s -> opt_len left (List.length s) -> opt_len right (List.length s) ->
  from_curvilinear s curvature heading0 left right = Ok t ->
  exists K H : R -> R, (forall d, curvature_at t d = Ok (K d)) /\ (forall d, derivable_pt_lim H d (K d)) /\ H 0 = heading0 /\
    forall i, (i < List.length s)%nat -> heading_at t (vget i s - vget 0 s) = Ok (H (vget i s - vget 0 s)).
Proof.
  intros s k h0 left right t G Ek Hl Hr Et. pose proof (proj1 G) as H2. destruct (trapz_ok k s Ek ltac:(lia)) as (q & Eq & Lq & Zq & Sq).
  unfold from_curvilinear, curvilinear_to_cartesian in Et. rewrite Eq in Et. cbn [bind] in Et. set (hd := map (fun v => v + h0) q) in *. assert (List.length hd = List.length s) as Lh by (unfold hd; rewrite map_length; lia).
  destruct (trapz_ok (map cos hd) s) as (qx & Ex & _); [now rewrite map_length|rewrite map_length; lia|]. destruct (trapz_ok (map sin hd) s) as (qy & Ey & _); [now rewrite map_length|rewrite map_length; lia|].
  rewrite Ex in Et. cbn [bind] in Et. rewrite Ey in Et. cbn [bind] in Et.
  destruct (C45_lookups (map (fun v => v + 0) qx) (map (fun v => v + 0) qy) s k hd left right G Ek Lh Hl Hr) as (t' & Et' & _ & P). rewrite Et in Et'. injection Et' as <-.
  set (a := map (fun v => v - vget 0 s) s) in *. assert (grid a) as Ga by now apply grid_shift. assert (List.length a = List.length s) as La by apply map_length. assert (List.length k = List.length a) as Eka by lia.
  assert (forall i, (i < List.length s)%nat -> vget i a = vget i s - vget 0 s) as Va by (intros; unfold a; now rewrite vget_map).
  exists (ksum a k (List.length a - 1)), (hsum a k h0 (List.length a - 1)).
  assert (forall i, (S i < List.length a)%nat -> vget (S i) q = vget i q + (vget i k + vget (S i) k) / 2 * (vget (S i) a - vget i a)) as Sq'. { intros i Hi. rewrite !Va by lia. rewrite Sq by lia. f_equal. f_equal. ring. }
  split; [|split; [|split]].
  - intro d. destruct (P d) as (c & ? & ? & ? & E1 & P1 & _). rewrite E1. f_equal. eapply pl_unique; [exact Ga|exact P1|]. now apply ksum_pl.
  - intro d. apply hsum_dlim.
  - pose proof (hsum_knot a k h0 Ga Eka q Zq Sq' 0%nat ltac:(lia)) as Q. rewrite Zq, (Va 0%nat) in Q by lia. replace (vget 0 s - vget 0 s) with 0 in Q by ring. rewrite Q. ring.
  - intros i Hi. destruct (P (vget i s - vget 0 s)) as (? & h & ? & ? & _ & _ & E1 & P1 & _). rewrite E1. f_equal. rewrite <- Va in * by exact Hi. rewrite (hsum_knot a k h0 Ga Eka q Zq Sq') by lia.
    assert (vget i hd = h0 + vget i q) as <- by (unfold hd; rewrite vget_map by lia; ring). destruct P1 as (Q1 & Q2 & Q3). destruct (Nat.eq_dec i 0) as [->|Ni]; [apply Q1; lra|].
    specialize (Q3 (i - 1)%nat ltac:(lia)). replace (S (i - 1)) with i in Q3 by lia. assert (vget (i - 1) a < vget i a) as Lt. { pose proof (proj2 Ga (i - 1)%nat ltac:(lia)) as Q. now replace (S (i - 1)) with i in Q by lia. }
    assert (h * (vget i a - vget (i - 1) a) = vget i hd * (vget i a - vget (i - 1) a)) as Q by (rewrite Q3 by lra; ring). apply Rmult_eq_reg_r in Q; [exact Q|lra].
Qed.
Print Assumptions C45_heading_is_integral.

(** From one sample to the next the position moves along the mean of the two unit tangents, so never further than the distance between the samples. *)
Theorem C45_positions : forall s curvature x0 y0 heading0, (1 <= List.length s)%nat -> List.length curvature = List.length s ->
  exists x y h, curvilinear_to_cartesian s curvature x0 y0 heading0 = Ok (x, y, h) /\ List.length x = List.length s /\ List.length y = List.length s /\ List.length h = List.length s /\
    vget 0 x = x0 /\ vget 0 y = y0 /\ vget 0 h = heading0 /\
    forall i, (S i < List.length s)%nat -> let ds := vget (S i) s - vget i s in
      vget (S i) h - vget i h = (vget i curvature + vget (S i) curvature) / 2 * ds /\
      vget (S i) x - vget i x = (cos (vget i h) + cos (vget (S i) h)) / 2 * ds /\ vget (S i) y - vget i y = (sin (vget i h) + sin (vget (S i) h)) / 2 * ds /\
      pdist (vget i x) (vget i y) (vget (S i) x) (vget (S i) y) <= Rabs ds /\
      (vget i curvature = 0 -> vget (S i) curvature = 0 -> pdist (vget i x) (vget i y) (vget (S i) x) (vget (S i) y) = Rabs ds).
Proof.
  intros s k x0 y0 h0 H1 Ek. unfold curvilinear_to_cartesian. destruct (trapz_ok k s Ek ltac:(lia)) as (q & Eq & Lq & Zq & Sq). rewrite Eq. cbn [bind]. set (hd := map (fun v => v + h0) q) in *. assert (List.length hd = List.length s) as Lh by (unfold hd; rewrite map_length; lia).
  assert (forall i, (i < List.length s)%nat -> vget i hd = vget i q + h0) as Vh by (intros; unfold hd; rewrite vget_map by lia; reflexivity).
  destruct (trapz_ok (map cos hd) s) as (qx & Ex & Lx & Zx & Sx); [now rewrite map_length|rewrite map_length; lia|]. destruct (trapz_ok (map sin hd) s) as (qy & Ey & Ly & Zy & Sy); [now rewrite map_length|rewrite map_length; lia|].
  rewrite map_length in Lx, Ly, Sx, Sy. rewrite Ex. cbn [bind]. rewrite Ey. cbn [bind]. do 3 eexists. split; [reflexivity|]. rewrite !map_length. do 3 (split; [lia|]). split; [rewrite vget_map by lia; rewrite Zx; ring|]. split; [rewrite vget_map by lia; rewrite Zy; ring|]. split; [rewrite Vh by lia; rewrite Zq; ring|].
  intros i Hi. cbv zeta. set (ds := vget (S i) s - vget i s). rewrite !(vget_map (fun v => v + x0)), !(vget_map (fun v => v + y0)) by lia. assert (vget (S i) hd - vget i hd = (vget i k + vget (S i) k) / 2 * ds) as Dh by (rewrite !Vh by lia; rewrite Sq by lia; fold ds; ring).
  assert (vget (S i) qx + x0 - (vget i qx + x0) = (cos (vget i hd) + cos (vget (S i) hd)) / 2 * ds) as Dx by (rewrite Sx by lia; rewrite !vget_map by lia; fold ds; ring).
  assert (vget (S i) qy + y0 - (vget i qy + y0) = (sin (vget i hd) + sin (vget (S i) hd)) / 2 * ds) as Dy by (rewrite Sy by lia; rewrite !vget_map by lia; fold ds; ring).
  split; [exact Dh|]. split; [exact Dx|]. split; [exact Dy|]. unfold pdist. rewrite Dx, Dy. set (u := vget i hd) in *. set (v := vget (S i) hd) in *. rewrite <- sqrt_Rsqr_abs. unfold Rsqr.
  assert ((cos u + cos v) / 2 * ds * ((cos u + cos v) / 2 * ds) + (sin u + sin v) / 2 * ds * ((sin u + sin v) / 2 * ds) = (1 + cos (u - v)) / 2 * (ds * ds)) as ->.
  { rewrite cos_minus. pose proof (sin2_cos2 u) as Qu. pose proof (sin2_cos2 v) as Qv. unfold Rsqr in *. transitivity (((sin u * sin u + cos u * cos u) / 2 + (sin v * sin v + cos v * cos v) / 2 + (cos u * cos v + sin u * sin v)) / 2 * (ds * ds)); [field|rewrite Qu, Qv; field]. }
  split.
  - apply sqrt_le_1_alt. pose proof (COS_bound (u - v)). nra.
  - intros K1 K2. f_equal. assert (u - v = 0) as -> by (rewrite K1, K2 in Dh; lra). rewrite cos_0. field.
Qed.
Print Assumptions C45_positions.
