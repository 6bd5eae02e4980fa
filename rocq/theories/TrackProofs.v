(** Lemmas about the numpy primitives used by the tracks. *)
From Verif Require Import Base RBase CollocProofs TrackModel TrackSpec.
From Coq Require Import Lra Lia.

Lemma diff1_len : forall l, List.length (diff1 l) = (List.length l - 1)%nat.
Proof. induction l as [|a l IH]; [reflexivity|]. destruct l as [|b l]; [reflexivity|]. change (S (List.length (diff1 (b :: l))) = (S (S (List.length l)) - 1)%nat). rewrite IH. cbn [List.length]. lia. Qed.
Lemma diff1_get : forall l i, (S i < List.length l)%nat -> vget i (diff1 l) = vget (S i) l - vget i l.
Proof. induction l as [|a l IH]; intros i Hi; [cbn in Hi; lia|]. destruct l as [|b l]; [cbn in Hi; lia|]. destruct i as [|i]; [reflexivity|]. change (vget i (diff1 (b :: l)) = vget (S i) (b :: l) - vget i (b :: l)). apply IH. cbn in *. lia. Qed.
Lemma cumsum_from_len : forall l a, List.length (cumsum_from a l) = List.length l.
Proof. induction l as [|b l IH]; intro a; [reflexivity|]. cbn. now rewrite IH. Qed.
Lemma cumsum_from_step : forall l a i, (S i < List.length l)%nat -> vget (S i) (cumsum_from a l) = vget i (cumsum_from a l) + vget (S i) l.
Proof.
  induction l as [|b l IH]; intros a i Hi; [cbn in Hi; lia|]. destruct i as [|i].
  - destruct l as [|c l]; [cbn in Hi; lia|]. reflexivity.
  - change (vget (S i) (cumsum_from (a + b) l) = vget i (cumsum_from (a + b) l) + vget (S i) l). apply IH. cbn in Hi. lia.
Qed.
Lemma cumsum0_len : forall d, List.length (cumsum (0 :: d)) = S (List.length d).
Proof. intro d. unfold cumsum. now rewrite cumsum_from_len. Qed.
Lemma cumsum0_0 : forall d, vget 0 (cumsum (0 :: d)) = 0.
Proof. intro d. unfold cumsum, vget. cbn. ring. Qed.
Lemma cumsum0_step : forall d i, (i < List.length d)%nat -> vget (S i) (cumsum (0 :: d)) = vget i (cumsum (0 :: d)) + vget i d.
Proof. intros d i Hi. unfold cumsum. rewrite cumsum_from_step by (cbn; lia). reflexivity. Qed.
Lemma vget_firstn : forall l n i, (i < n)%nat -> vget i (firstn n l) = vget i l.
Proof. induction l as [|a l IH]; intros n i Hi; [now destruct n|]. destruct n as [|n]; [lia|]. destruct i as [|i]; [reflexivity|]. apply (IH n i). lia. Qed.
Lemma vget_tl : forall l i, vget i (tl l) = vget (S i) l.
Proof. intros [|a l] i; [now destruct i|reflexivity]. Qed.
Lemma tl_len : forall (l : list R), List.length (tl l) = (List.length l - 1)%nat.
Proof. intros [|a l]; cbn; lia. Qed.
Lemma vget_map : forall (f : R -> R) l i, (i < List.length l)%nat -> vget i (map f l) = f (vget i l).
Proof. intros f l. induction l as [|a l IH]; intros i Hi; [cbn in Hi; lia|]. destruct i as [|i]; [reflexivity|]. apply (IH i). cbn in Hi. lia. Qed.
Lemma vget_map_seq : forall (f : nat -> R) n i, (i < n)%nat -> vget i (map f (seq 0 n)) = f i.
Proof. intros f n i Hi. unfold vget. rewrite nth_indep with (d' := f 0%nat) by (rewrite map_length, seq_length; exact Hi). rewrite map_nth. now rewrite seq_nth by exact Hi. Qed.
Lemma vget_map2 : forall (f : R -> R -> R) a b i, List.length a = List.length b -> (i < List.length a)%nat -> vget i (map2 f a b) = f (vget i a) (vget i b).
Proof. intros f a b i H Hi. unfold vget. now apply map2_nth. Qed.

Lemma trapz_ok : forall y x, List.length y = List.length x -> (1 <= List.length y)%nat -> exists t, trapz y x = Ok t /\ List.length t = List.length y /\ vget 0 t = 0 /\
  forall i, (S i < List.length y)%nat -> vget (S i) t = vget i t + (vget i y + vget (S i) y) / 2 * (vget (S i) x - vget i x).
Proof.
  intros y x E H1. unfold trapz. rewrite E, Nat.eqb_refl. cbn [negb]. eexists. split; [reflexivity|]. rewrite <- E. set (n := List.length y) in *.
  assert (List.length (firstn (n - 1) y) = (n - 1)%nat) as L1 by (rewrite firstn_length; fold n; lia).
  assert (List.length (vadd (firstn (n - 1) y) (tl y)) = (n - 1)%nat) as L2 by (unfold vadd; rewrite map2_length; [exact L1|rewrite L1, tl_len; reflexivity]).
  assert (List.length (diff1 x) = (n - 1)%nat) as L3 by (rewrite diff1_len; lia).
  assert (List.length (vmul (map (fun v => v / 2) (vadd (firstn (n - 1) y) (tl y))) (diff1 x)) = (n - 1)%nat) as L4 by (rewrite vmul_length; rewrite map_length; lia).
  split; [rewrite cumsum0_len, L4; lia|]. split; [apply cumsum0_0|]. intros i Hi. rewrite cumsum0_step by lia. f_equal. rewrite vget_vmul by (rewrite map_length; lia).
  rewrite vget_map by lia. unfold vadd. rewrite vget_map2; [|rewrite L1, tl_len; reflexivity|lia]. rewrite vget_firstn by lia. rewrite vget_tl, diff1_get by lia. reflexivity.
Qed.

(** ** grids *)
Lemma grid_le : forall s, grid s -> forall j i, (i <= j)%nat -> (j < List.length s)%nat -> vget i s <= vget j s.
Proof. intros l [_ H] j. induction j as [|j IH]; intros i Hi Hj; [replace i with 0%nat by lia; lra|]. destruct (Nat.eq_dec i (S j)) as [->|]; [lra|]. specialize (IH i). assert (vget j l < vget (S j) l) by now apply H. assert (vget i l <= vget j l) by (apply IH; lia). lra. Qed.
Lemma grid_lt : forall s, grid s -> forall j i, (i < j)%nat -> (j < List.length s)%nat -> vget i s < vget j s.
Proof. intros l G j i Hi Hj. pose proof (proj2 G) as H. assert (vget i l < vget (S i) l) by (apply H; lia). assert (vget (S i) l <= vget j l) by (apply grid_le; [assumption|lia|assumption]). lra. Qed.
Lemma grid_shift : forall s c, grid s -> grid (map (fun v => v - c) s).
Proof. intros s c [H2 H]. split; [now rewrite map_length|]. intros i Hi. rewrite map_length in Hi. rewrite !vget_map by lia. pose proof (H i Hi). lra. Qed.
Lemma grid_find : forall s, grid s -> forall x, vget 0 s <= x <= vget (List.length s - 1) s -> exists i, (S i < List.length s)%nat /\ vget i s <= x <= vget (S i) s.
Proof.
  intros s G x [H0 H1]. pose proof (proj1 G) as H2. assert (forall m, (S m < List.length s)%nat -> x <= vget (S m) s -> exists i, (S i < List.length s)%nat /\ vget i s <= x <= vget (S i) s) as F.
  { induction m as [|m IH]; intros Hm Hx; [now exists 0%nat|]. destruct (Rle_dec x (vget (S m) s)) as [L|N]; [apply IH; [lia|exact L]|]. exists (S m). repeat split; [exact Hm|lra|exact Hx]. }
  apply (F (List.length s - 2)%nat); [lia|]. now replace (S (List.length s - 2)) with (List.length s - 1)%nat by lia.
Qed.
Lemma pl_unique : forall xp fp x y z, grid xp -> piecewise_linear xp fp x y -> piecewise_linear xp fp x z -> y = z.
Proof.
  intros xp fp x y z G (A1 & A2 & A3) (B1 & B2 & B3). destruct (Rle_dec x (vget 0 xp)) as [L|N]; [rewrite A1, B1 by assumption; reflexivity|]. destruct (Rle_dec (vget (List.length xp - 1) xp) x) as [L|N']; [rewrite A2, B2 by assumption; reflexivity|].
  destruct (grid_find xp G x) as (i & Hi & Hx); [lra|]. pose proof (A3 i Hi Hx) as E1. pose proof (B3 i Hi Hx) as E2. rewrite <- E2 in E1. pose proof (proj2 G i Hi). apply Rmult_eq_reg_r in E1; [exact E1|lra].
Qed.
Lemma search_ok : forall l o x, exists k, search o l x = (o + k)%nat /\ (k <= List.length l)%nat /\ (forall j, (j < k)%nat -> vget j l <= x) /\ ((k < List.length l)%nat -> x < vget k l).
Proof.
  induction l as [|g l IH]; intros o x; [exists 0%nat; cbn; repeat split; intros; lia|]. cbn [search]. destruct (Rlt_dec x g) as [L|N].
  - exists 0%nat. cbn [List.length]. repeat split; [lia|lia|intros; lia|]. intros _. exact L.
  - destruct (IH (S o) x) as (k & E & Hk & H1 & H2). exists (S k). cbn [List.length]. repeat split; [rewrite E; lia|lia| |].
    + intros [|j] Hj; [change (g <= x); lra|]. apply (H1 j). lia.
    + intro H. apply H2. lia.
Qed.
Lemma np_interp_ok : forall x xp fp, grid xp -> List.length fp = List.length xp -> exists y, np_interp x xp fp = Ok y /\ piecewise_linear xp fp x y.
Proof.
  intros x xp fp G E. pose proof (proj1 G) as H2. unfold np_interp. destruct (Nat.eqb_spec (List.length xp) 0) as [Z|_]; [lia|]. rewrite E, Nat.eqb_refl. cbn [negb]. set (n := List.length xp) in *. unfold piecewise_linear. fold n.
  assert (vget 0 xp < vget (n - 1) xp) as He by (apply grid_lt; [exact G|lia|fold n; lia]). destruct (Rlt_dec x (vget 0 xp)) as [L|N].
  { eexists. split; [reflexivity|]. split; [reflexivity|]. split; [intro; lra|]. intros i Hi [Hx _]. assert (vget 0 xp <= vget i xp) by (apply grid_le; [exact G|lia|fold n; lia]). lra. }
  destruct (Rlt_dec (vget (n - 1) xp) x) as [L'|N'].
  { eexists. split; [reflexivity|]. split; [intro; lra|]. split; [reflexivity|]. intros i Hi [_ Hx]. assert (vget (S i) xp <= vget (n - 1) xp) by (apply grid_le; [exact G|lia|fold n; lia]). lra. }
  destruct (search_ok (tl xp) 0 x) as (k & -> & Hk & Hlo & Hhi). cbn [plus]. rewrite tl_len in Hk, Hhi. fold n in Hk, Hhi. rewrite vget_tl in Hhi.
  assert (vget k xp <= x) as Kx. { destruct k as [|k]; [lra|]. rewrite <- vget_tl. apply Hlo. lia. }
  destruct (Nat.eqb_spec k (n - 1)) as [->|Nk].
  - eexists. split; [reflexivity|]. assert (x = vget (n - 1) xp) as -> by lra. split; [intro; lra|]. split; [reflexivity|]. intros i Hi [_ Hx].
    destruct (Nat.eq_dec (S i) (n - 1)) as [Ei|Ni]; [rewrite Ei in *; lra|]. assert (vget (S i) xp < vget (n - 1) xp) by (apply grid_lt; [exact G|lia|fold n; lia]). lra.
  - assert (x < vget (S k) xp) as Kx' by (apply Hhi; lia). pose proof (proj2 G k ltac:(fold n; lia)) as Gk. eexists. split; [reflexivity|]. split; [|split].
    + intro Hx. assert (k = 0)%nat as ->. { destruct (Nat.eq_dec k 0); [assumption|]. assert (vget 0 xp < vget k xp) by (apply grid_lt; [exact G|lia|fold n; lia]). lra. } replace (x - vget 0 xp) with 0 by lra. ring.
    + intro Hx. assert (vget (S k) xp <= vget (n - 1) xp) by (apply grid_le; [exact G|lia|fold n; lia]). lra.
    + intros i Hi [Hx1 Hx2]. destruct (lt_eq_lt_dec k i) as [[L|Ei]|Gt].
      * assert (vget (S k) xp <= vget i xp) by (apply grid_le; [exact G|lia|fold n; lia]). lra.
      * subst k. field. lra.
      * assert (vget (S i) xp <= vget k xp) by (apply grid_le; [exact G|lia|fold n; lia]). assert (x = vget k xp) as Ex by lra.
        assert (k = S i) as ->. { destruct (Nat.eq_dec k (S i)); [assumption|]. assert (vget (S i) xp < vget k xp) by (apply grid_lt; [exact G|lia|fold n; lia]). lra. }
        rewrite Ex. field. lra.
Qed.

(** ** a primitive of a piecewise linear function *)
Definition pos (u : R) : R := Rmax u 0.
Lemma pos_pos : forall u, 0 <= u -> pos u = u. Proof. intros u H. unfold pos. now apply Rmax_left. Qed.
Lemma pos_neg : forall u, u <= 0 -> pos u = 0. Proof. intros u H. unfold pos. now apply Rmax_right. Qed.
Lemma dlim_pos2 : forall u, derivable_pt_lim (fun t => pos t * pos t / 2) u (pos u).
Proof.
  intro u. destruct (Rtotal_order u 0) as [L|[E|G]].
  - rewrite pos_neg by lra. intros eps He. assert (0 < - u) as Hu by lra. exists (mkposreal _ Hu). intros h Hh Hd. cbn in Hd. rewrite !pos_neg; [|lra|]; [|revert Hd; unfold Rabs; destruct (Rcase_abs h); lra].
    replace ((0 * 0 / 2 - 0 * 0 / 2) / h - 0) with 0 by (field; exact Hh). now rewrite Rabs_R0.
  - subst u. rewrite pos_neg by lra. intros eps He. exists (mkposreal _ He). intros h Hh Hd. cbn in Hd. rewrite (pos_neg 0), Rplus_0_l by lra. destruct (Rle_dec h 0) as [L|N].
    + rewrite pos_neg by exact L. replace ((0 * 0 / 2 - 0 * 0 / 2) / h - 0) with 0 by (field; exact Hh). now rewrite Rabs_R0.
    + rewrite pos_pos by lra. replace ((h * h / 2 - 0 * 0 / 2) / h - 0) with (h / 2) by (field; exact Hh). revert Hd. unfold Rabs. destruct (Rcase_abs h), (Rcase_abs (h / 2)); lra.
  - rewrite pos_pos by lra. intros eps He. assert (0 < Rmin u eps) as Hu by (apply Rmin_pos; lra). exists (mkposreal _ Hu). intros h Hh Hd. cbn in Hd. pose proof (Rmin_l u eps). pose proof (Rmin_r u eps).
    rewrite !pos_pos; [|lra|]; [|revert Hd; unfold Rabs; destruct (Rcase_abs h); lra]. replace (((u + h) * (u + h) / 2 - u * u / 2) / h - u) with (h / 2) by (field; exact Hh). revert Hd. unfold Rabs. destruct (Rcase_abs h), (Rcase_abs (h / 2)); lra.
Qed.
Lemma dlim_pos2_shift : forall a d, derivable_pt_lim (fun t => pos (t - a) * pos (t - a) / 2) d (pos (d - a)).
Proof.
  intros a d. assert (derivable_pt_lim (fun t => t - a) d 1) as D by (apply dlim_ext with (f := fun t => 1 * t + - a); [intro; ring|apply dlim_lin]).
  pose proof (derivable_pt_lim_comp _ _ d _ _ D (dlim_pos2 (d - a))) as C. unfold comp in C. eapply dlim_eq; [|exact C]. ring.
Qed.
Section Prim.
Variables (a k : list R) (c0 : R).
Definition slope (i : nat) : R := (vget (S i) k - vget i k) / (vget (S i) a - vget i a).
Fixpoint ksum (m : nat) (d : R) : R := match m with O => vget 0 k | S m => ksum m d + slope m * (pos (d - vget m a) - pos (d - vget (S m) a)) end.
Fixpoint hsum (m : nat) (d : R) : R := match m with O => c0 + vget 0 k * (d - vget 0 a) | S m => hsum m d + slope m * (pos (d - vget m a) * pos (d - vget m a) / 2 - pos (d - vget (S m) a) * pos (d - vget (S m) a) / 2) end.
Lemma hsum_dlim : forall m d, derivable_pt_lim (hsum m) d (ksum m d).
Proof using.
  induction m as [|m IH]; intro d; cbn [hsum ksum].
  - apply dlim_ext with (f := fun t => vget 0 k * t + (c0 - vget 0 k * vget 0 a)); [intro; ring|apply dlim_lin].
  - apply dlim_plus; [apply IH|]. apply dlim_scal. apply derivable_pt_lim_minus; apply dlim_pos2_shift.
Qed.
Hypothesis (G : grid a) (E : List.length k = List.length a).
Let n := List.length a.
Lemma ksum_past : forall m d, (m < n)%nat -> vget m a <= d -> ksum m d = vget m k.
Proof using G E.
  induction m as [|m IH]; intros d Hm Hd; [reflexivity|]. pose proof (proj2 G m ltac:(fold n; lia)). cbn [ksum]. rewrite IH by (try lia; lra). rewrite !pos_pos by lra. unfold slope. field. lra.
Qed.
Lemma ksum_future : forall m j d, (j <= m)%nat -> (m < n)%nat -> d <= vget j a -> ksum m d = ksum j d.
Proof using G E.
  induction m as [|m IH]; intros j d Hj Hm Hd; [now replace j with 0%nat by lia|]. destruct (Nat.eq_dec j (S m)) as [->|]; [reflexivity|]. cbn [ksum]. pose proof (proj2 G m ltac:(fold n; lia)).
  assert (vget j a <= vget m a) by (apply grid_le; [exact G|lia|fold n; lia]). rewrite !pos_neg by lra. rewrite (IH j) by (try lia; lra). ring.
Qed.
Lemma ksum_pl : forall d, piecewise_linear a k d (ksum (n - 1) d).
Proof using G E.
  intro d. pose proof (proj1 G) as H2. fold n in H2. split; [|split].
  - intro H. rewrite (ksum_future _ 0%nat) by (try lia; exact H). reflexivity.
  - fold n. intro H. apply ksum_past; [lia|exact H].
  - fold n. intros i Hi [H1 H3]. rewrite (ksum_future _ (S i)) by (try lia; exact H3). cbn [ksum]. rewrite ksum_past by (try lia; exact H1). rewrite pos_pos, pos_neg by lra. unfold slope. pose proof (proj2 G i Hi). field. lra.
Qed.
Lemma hsum_future : forall m j d, (j <= m)%nat -> (m < n)%nat -> d <= vget j a -> hsum m d = hsum j d.
Proof using G E.
  induction m as [|m IH]; intros j d Hj Hm Hd; [now replace j with 0%nat by lia|]. destruct (Nat.eq_dec j (S m)) as [->|]; [reflexivity|]. cbn [hsum]. pose proof (proj2 G m ltac:(fold n; lia)).
  assert (vget j a <= vget m a) by (apply grid_le; [exact G|lia|fold n; lia]). rewrite !pos_neg by lra. rewrite (IH j) by (try lia; lra). field.
Qed.
Lemma hsum_past : forall t, vget 0 t = 0 -> (forall i, (S i < n)%nat -> vget (S i) t = vget i t + (vget i k + vget (S i) k) / 2 * (vget (S i) a - vget i a)) ->
  forall m d, (m < n)%nat -> vget m a <= d -> hsum m d = c0 + vget m t + vget m k * (d - vget m a).
Proof using G E.
  intros t H0 Ht. induction m as [|m IH]; intros d Hm Hd; [cbn [hsum]; rewrite H0; ring|]. pose proof (proj2 G m ltac:(fold n; lia)). cbn [hsum]. rewrite IH by (try lia; lra). rewrite Ht by lia. rewrite !pos_pos by lra. unfold slope. field. lra.
Qed.
Lemma hsum_knot : forall t, vget 0 t = 0 -> (forall i, (S i < n)%nat -> vget (S i) t = vget i t + (vget i k + vget (S i) k) / 2 * (vget (S i) a - vget i a)) ->
  forall m, (m < n)%nat -> hsum (n - 1) (vget m a) = c0 + vget m t.
Proof using G E. intros t H0 Ht m Hm. rewrite (hsum_future _ m) by (try lia; lra). rewrite (hsum_past t H0 Ht) by (try lia; lra). ring. Qed.
End Prim.

(** ** arctan2 *)
Lemma cos_pos_atan : forall u, 0 < cos (atan u).
Proof. intro u. destruct (atan_bound u). apply cos_gt_0; lra. Qed.
Lemma sin_atan_cos : forall u, sin (atan u) = u * cos (atan u).
Proof. intro u. pose proof (cos_pos_atan u). replace u with (tan (atan u)) at 2 by apply tan_atan. unfold tan. field. lra. Qed.
Lemma cos_atan_scale : forall x y, 0 < x -> sqrt (x * x + y * y) * cos (atan (y / x)) = x.
Proof.
  intros x y Hx. pose proof (cos_pos_atan (y / x)) as C. pose proof (sin_atan_cos (y / x)) as S. pose proof (sin2_cos2 (atan (y / x))) as Q. unfold Rsqr in Q. rewrite S in Q. set (c := cos (atan (y / x))) in *.
  assert (c * c * (x * x + y * y) = x * x) as Ec. { replace (c * c * (x * x + y * y)) with ((y / x * c * (y / x * c) + c * c) * (x * x)) by (field; lra). rewrite Q. ring. }
  assert (sqrt (x * x + y * y) * c = sqrt ((x * x + y * y) * (c * c))) as -> by (rewrite sqrt_mult_alt by nra; f_equal; symmetry; apply sqrt_square; lra).
  rewrite Rmult_comm, Ec. apply sqrt_square. lra.
Qed.
Lemma arctan2_spec : forall x y, (x <> 0 \/ y <> 0) -> let t := arctan2 y x in let r := sqrt (x * x + y * y) in 0 < r /\ r * cos t = x /\ r * sin t = y /\ - PI < t <= PI.
Proof.
  intros x y N t r. pose proof PI_RGT_0 as P. assert (0 < r) as Hr by (apply sqrt_lt_R0; destruct N; nra). split; [exact Hr|]. unfold t, arctan2. destruct (Rlt_dec 0 x) as [X|X].
  - pose proof (cos_atan_scale x y X) as C. fold r in C. split; [exact C|]. split; [|destruct (atan_bound (y / x)); lra]. rewrite sin_atan_cos. replace (r * (y / x * cos (atan (y / x)))) with (y / x * (r * cos (atan (y / x)))) by ring. rewrite C. field. lra.
  - destruct (Rlt_dec x 0) as [X'|X'].
    + pose proof (cos_atan_scale (- x) (- y) ltac:(lra)) as C. replace (- x * - x + - y * - y) with (x * x + y * y) in C by ring. fold r in C. replace (- y / - x) with (y / x) in C by (field; lra). destruct (atan_bound (y / x)) as [B1 B2].
      assert (r * sin (atan (y / x)) = - y) as S. { rewrite sin_atan_cos. replace (r * (y / x * cos (atan (y / x)))) with (y / x * (r * cos (atan (y / x)))) by ring. rewrite C. field. lra. }
      destruct (Rle_dec 0 y) as [Y|Y].
      * rewrite neg_cos, neg_sin. split; [lra|]. split; [lra|]. split; [lra|]. assert (y / x <= 0) as U. { unfold Rdiv. pose proof (Rinv_lt_0_compat x X'). nra. } assert (atan (y / x) <= 0); [|lra]. destruct U as [U|U]; [left; rewrite <- atan_0; now apply atan_increasing|right; rewrite U; apply atan_0].
      * assert (cos (atan (y / x) - PI) = - cos (atan (y / x))) as -> by (rewrite cos_minus, cos_PI, sin_PI; ring). assert (sin (atan (y / x) - PI) = - sin (atan (y / x))) as -> by (rewrite sin_minus, cos_PI, sin_PI; ring).
        split; [lra|]. split; [lra|]. split; [|lra]. assert (0 < y / x) as U. { unfold Rdiv. pose proof (Rinv_lt_0_compat x X'). nra. } assert (0 < atan (y / x)) by (rewrite <- atan_0; now apply atan_increasing). lra.
    + assert (x = 0) as -> by lra. assert (r = Rabs y) as Er by (unfold r; replace (0 * 0 + y * y) with (Rsqr y) by (unfold Rsqr; ring); apply sqrt_Rsqr_abs). destruct (Rlt_dec 0 y) as [Y|Y].
      * rewrite cos_PI2, sin_PI2, Er, Rabs_right by lra. repeat split; lra.
      * destruct (Rlt_dec y 0) as [Y'|Y']; [|destruct N; lra]. rewrite cos_neg, sin_neg, cos_PI2, sin_PI2, Er, Rabs_left by lra. repeat split; lra.
Qed.
