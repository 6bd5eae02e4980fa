From Verif Require Import Base RBase BrachModel BrachSpec.
From Coq Require Import Lra Ranalysis5 Rtrigo_calc.
Open Scope R_scope.

(** ** monotone functions, with finitely many points where nothing is known of the derivative *)
Lemma mono_open : forall f f' a b, a < b -> (forall c, a <= c <= b -> continuity_pt f c) -> (forall c, a < c < b -> derivable_pt_lim f c (f' c) /\ 0 <= f' c) -> f a <= f b.
Proof.
  intros f f' a b Hab C D.
  assert (forall c, a < c < b -> derivable_pt f c) as pr1 by (intros c Hc; exists (f' c); apply D; exact Hc).
  assert (forall c, a < c < b -> derivable_pt id c) as pr2 by (intros c Hc; apply derivable_pt_id).
  destruct (MVT f id a b pr1 pr2 Hab C (fun c _ => derivable_continuous_pt _ _ (derivable_pt_id c))) as (c & P & E).
  assert (derive_pt f c (pr1 c P) = f' c) as E1 by (apply derive_pt_eq_0, D, P).
  assert (derive_pt id c (pr2 c P) = 1) as E2 by (apply derive_pt_eq_0; apply derivable_pt_lim_id).
  rewrite E1, E2 in E. unfold id in E. destruct (D c P) as [_ H]. assert (0 <= (b - a) * f' c) by (apply Rmult_le_pos; lra). lra.
Qed.
Lemma mono : forall breaks f f' a b, a <= b -> (forall c, a <= c <= b -> continuity_pt f c) ->
  (forall c, a < c < b -> ~ In c breaks -> derivable_pt_lim f c (f' c) /\ 0 <= f' c) -> f a <= f b.
Proof.
  induction breaks as [|p l IH]; intros f f' a b Hab C D.
  - destruct (Rle_lt_or_eq_dec a b Hab) as [H| ->]; [|lra]. apply (mono_open f f' a b H C). intros c Hc. apply D; [exact Hc|intros []].
  - assert ((a < p < b) \/ ~ (a < p < b)) as [Hp|Hp] by (destruct (Rlt_dec a p), (Rlt_dec p b); [left; lra|right; lra|right; lra|right; lra]).
    + apply Rle_trans with (f p).
      * apply (IH f f'); [lra|intros c Hc; apply C; lra|]. intros c Hc Hn. apply D; [lra|]. intros [E|E]; [lra|contradiction].
      * apply (IH f f'); [lra|intros c Hc; apply C; lra|]. intros c Hc Hn. apply D; [lra|]. intros [E|E]; [lra|contradiction].
    + apply (IH f f'); [exact Hab|exact C|]. intros c Hc Hn. apply D; [exact Hc|]. intros [E|E]; [subst; contradiction|contradiction].
Qed.

Lemma cont_of_lim : forall f t l, derivable_pt_lim f t l -> continuity_pt f t.
Proof. intros f t l H. apply derivable_continuous_pt. exists l. exact H. Qed.
Lemma lim_eq : forall f x l l', l = l' -> derivable_pt_lim f x l -> derivable_pt_lim f x l'.
Proof. intros; now subst. Qed.
Lemma lim_lin : forall a t, derivable_pt_lim (fun t => a * t) t a.
Proof. intros a t. apply lim_eq with (a * 1); [ring|]. apply derivable_pt_lim_scal. apply derivable_pt_lim_id. Qed.
Lemma lim_cos_lin : forall a t, derivable_pt_lim (fun t => cos (a * t)) t (- sin (a * t) * a).
Proof. intros a t. apply (derivable_pt_lim_comp (fun t => a * t) cos t a (- sin (a * t))); [apply lim_lin|apply derivable_pt_lim_cos]. Qed.
Lemma lim_sin_lin : forall a t, derivable_pt_lim (fun t => sin (a * t)) t (cos (a * t) * a).
Proof. intros a t. apply (derivable_pt_lim_comp (fun t => a * t) sin t a (cos (a * t))); [apply lim_lin|apply derivable_pt_lim_sin]. Qed.
Lemma lim_sq : forall f t d, derivable_pt_lim f t d -> derivable_pt_lim (fun t => f t * f t) t (2 * f t * d).
Proof. intros f t d H. apply lim_eq with (d * f t + f t * d); [ring|]. exact (derivable_pt_lim_mult f f t d d H H). Qed.
Lemma lim_plus : forall f g t a b, derivable_pt_lim f t a -> derivable_pt_lim g t b -> derivable_pt_lim (fun t => f t + g t) t (a + b).
Proof. intros. now apply (derivable_pt_lim_plus f g). Qed.
Lemma lim_minus : forall f g t a b, derivable_pt_lim f t a -> derivable_pt_lim g t b -> derivable_pt_lim (fun t => f t - g t) t (a - b).
Proof. intros. now apply (derivable_pt_lim_minus f g). Qed.
Lemma lim_scal : forall f t a k, derivable_pt_lim f t a -> derivable_pt_lim (fun t => k * f t) t (k * a).
Proof. intros. now apply (derivable_pt_lim_scal f). Qed.
Lemma lim_mult : forall f g t a b, derivable_pt_lim f t a -> derivable_pt_lim g t b -> derivable_pt_lim (fun t => f t * g t) t (a * g t + f t * b).
Proof. intros. now apply (derivable_pt_lim_mult f g). Qed.
Lemma cont_plus : forall f g t, continuity_pt f t -> continuity_pt g t -> continuity_pt (fun t => f t + g t) t.
Proof. intros. now apply (continuity_pt_plus f g). Qed.
Lemma cont_minus : forall f g t, continuity_pt f t -> continuity_pt g t -> continuity_pt (fun t => f t - g t) t.
Proof. intros. now apply (continuity_pt_minus f g). Qed.
Lemma cont_scal : forall f t k, continuity_pt f t -> continuity_pt (fun t => k * f t) t.
Proof. intros. now apply (continuity_pt_scal f). Qed.
Lemma cont_mult : forall f g t, continuity_pt f t -> continuity_pt g t -> continuity_pt (fun t => f t * g t) t.
Proof. intros. now apply (continuity_pt_mult f g). Qed.

(** [u cos u <= sin u] from 0 to pi *)
Lemma ucos : forall u, 0 <= u <= PI -> u * cos u <= sin u.
Proof.
  intros u Hu. enough (sin 0 - 0 * cos 0 <= sin u - u * cos u) as H by (rewrite sin_0 in H; lra).
  apply (mono [] (fun u => sin u - u * cos u) (fun u => u * sin u)); [lra| |].
  - intros c _. apply cont_minus; [apply continuity_sin|apply cont_mult; [apply derivable_continuous_pt, derivable_pt_id|apply continuity_cos]].
  - intros c Hc _. split.
    + apply lim_eq with (cos c - (1 * cos c + c * - sin c)); [ring|]. apply lim_minus; [apply derivable_pt_lim_sin|]. apply (lim_mult (fun u => u) cos); [apply derivable_pt_lim_id|apply derivable_pt_lim_cos].
    + apply Rmult_le_pos; [lra|]. apply sin_ge_0; lra.
Qed.

(** ** the model in elementary terms *)
Lemma time_sem : forall g v x y th, time_forward [("gravity", g)] [("v", v); ("x", x); ("y", y)] [("theta", th)] =
  Ok ([("v", - g * sin th); ("x", cos th * v); ("y", sin th * v)], [("theta", th)]).
Proof. reflexivity. Qed.
Definition motion (g T : R) (breaks : list R) (th v x y : R -> R) : Prop :=
  (forall t, 0 <= t <= T -> continuity_pt v t /\ continuity_pt x t /\ continuity_pt y t) /\
  forall t, 0 < t < T -> ~ In t breaks -> derivable_pt_lim v t (- g * sin (th t)) /\ derivable_pt_lim x t (cos (th t) * v t) /\ derivable_pt_lim y t (sin (th t) * v t).
Lemma rides_motion : forall g T th v x y, rides g T th v x y <-> exists breaks, motion g T breaks th v x y.
Proof.
  intros g T th v x y. split.
  - intros [C (br & H)]. exists br. split; [exact C|]. intros t Ht Hn. destruct (H t Ht Hn) as (a & b & c & out & E & A & B & D). rewrite time_sem in E. inversion E; subst. auto.
  - intros (br & C & H). split; [exact C|]. exists br. intros t Ht Hn. destruct (H t Ht Hn) as (A & B & D). do 4 eexists. split; [apply time_sem|]. auto.
Qed.

Section Ride.
Variables (g T : R) (breaks : list R) (th v x y : R -> R).
Hypothesis Hg : 0 < g.
Hypothesis HM : motion g T breaks th v x y.
Hypothesis v0 : v 0 = 0.
Hypothesis x0 : x 0 = 0.
Hypothesis y0 : y 0 = 0.

(** energy *)
Lemma energy : forall t, 0 <= t <= T -> v t * v t = - 2 * g * y t.
Proof.
  intros t Ht. destruct HM as [C D].
  assert (v 0 * v 0 + 2 * g * y 0 <= v t * v t + 2 * g * y t) as A.
  { apply (mono breaks (fun t => v t * v t + 2 * g * y t) (fun _ => 0)); [lra| |].
    - intros c Hc. destruct (C c ltac:(lra)) as (Cv & _ & Cy). apply cont_plus; [now apply cont_mult|now apply (cont_scal y)].
    - intros c Hc Hn. destruct (D c ltac:(lra) Hn) as (Dv & _ & Dy). split; [|lra]. apply lim_eq with (2 * v c * (- g * sin (th c)) + 2 * g * (sin (th c) * v c)); [ring|].
      apply lim_plus; [now apply lim_sq|now apply (lim_scal y)]. }
  assert (-1 * (v 0 * v 0 + 2 * g * y 0) <= -1 * (v t * v t + 2 * g * y t)) as B.
  { apply (mono breaks (fun t => -1 * (v t * v t + 2 * g * y t)) (fun _ => 0)); [lra| |].
    - intros c Hc. destruct (C c ltac:(lra)) as (Cv & _ & Cy). apply (cont_scal (fun t => v t * v t + 2 * g * y t)). apply cont_plus; [now apply cont_mult|now apply (cont_scal y)].
    - intros c Hc Hn. destruct (D c ltac:(lra) Hn) as (Dv & _ & Dy). split; [|lra]. apply lim_eq with (-1 * (2 * v c * (- g * sin (th c)) + 2 * g * (sin (th c) * v c))); [ring|].
      apply (lim_scal (fun t => v t * v t + 2 * g * y t)). apply lim_plus; [now apply lim_sq|now apply (lim_scal y)]. }
  rewrite v0, y0 in A, B. lra.
Qed.
(** the speed is at most that of a free fall *)
Lemma speed : forall t, 0 <= t <= T -> Rabs (v t) <= g * t.
Proof.
  intros t Ht. destruct HM as [C D]. apply Rabs_le.
  assert (g * 0 - v 0 <= g * t - v t) as A.
  { apply (mono breaks (fun t => g * t - v t) (fun t => g - (- g * sin (th t)))); [lra| |].
    - intros c Hc. destruct (C c ltac:(lra)) as (Cv & _). apply cont_minus; [|exact Cv]. eapply cont_of_lim, lim_lin.
    - intros c Hc Hn. destruct (D c ltac:(lra) Hn) as (Dv & _). split; [apply lim_minus; [apply lim_lin|exact Dv]|]. pose proof (SIN_bound (th c)). nra. }
  assert (g * 0 + v 0 <= g * t + v t) as B.
  { apply (mono breaks (fun t => g * t + v t) (fun t => g + (- g * sin (th t)))); [lra| |].
    - intros c Hc. destruct (C c ltac:(lra)) as (Cv & _). apply cont_plus; [|exact Cv]. eapply cont_of_lim, lim_lin.
    - intros c Hc Hn. destruct (D c ltac:(lra) Hn) as (Dv & _). split; [apply lim_plus; [apply lim_lin|exact Dv]|]. pose proof (SIN_bound (th c)). nra. }
  rewrite v0 in A, B. lra.
Qed.
(** so is the distance *)
Lemma distance : forall t, 0 <= t <= T -> x t <= g * (t * t).
Proof.
  intros t Ht. destruct HM as [C D].
  assert (g * (0 * 0) - x 0 <= g * (t * t) - x t) as A.
  { apply (mono breaks (fun t => g * (t * t) - x t) (fun t => g * (2 * t * 1) - cos (th t) * v t)); [lra| |].
    - intros c Hc. destruct (C c ltac:(lra)) as (_ & Cx & _). apply cont_minus; [|exact Cx]. eapply cont_of_lim. apply (lim_scal (fun t => t * t)). apply (lim_sq (fun t => t)). apply derivable_pt_lim_id.
    - intros c Hc Hn. destruct (D c ltac:(lra) Hn) as (_ & Dx & _). split; [apply lim_minus; [|exact Dx]; apply (lim_scal (fun t => t * t)); apply (lim_sq (fun t => t)); apply derivable_pt_lim_id|].
      pose proof (speed c ltac:(lra)) as Sp. pose proof (COS_bound (th c)) as Cb.
      assert (cos (th c) * v c <= Rabs (v c)). { apply Rle_trans with (Rabs (cos (th c) * v c)); [apply Rle_abs|]. rewrite Rabs_mult. assert (Rabs (cos (th c)) <= 1) by (apply Rabs_le; lra). pose proof (Rabs_pos (v c)). nra. }
      nra. }
  rewrite x0 in A. lra.
Qed.

(** how far one gets in time: the isoperimetric inequality in disguise (w = v / g is the height and t the length of a curve, x / g the area below it) *)
Variable k : R.
Hypothesis Hk : 0 < k.
Hypothesis HT : 0 < T.
Hypothesis HTk : T < k * PI.
Let cot (t : R) : R := cos (/ k * t) / sin (/ k * t).
Let gap (t : R) : R := g * (k / 2) * t - / (2 * g) * (v t * v t * cot t) - x t.

Lemma angle : forall t, 0 < t <= T -> 0 < / k * t < PI.
Proof.
  intros t Ht. assert (0 < / k) by now apply Rinv_0_lt_compat. split; [nra|]. apply Rmult_lt_reg_l with k; [exact Hk|]. rewrite <- Rmult_assoc, Rinv_r by lra. lra.
Qed.
Lemma cot_lim : forall t, 0 < t <= T -> derivable_pt_lim cot t (- / k * / (sin (/ k * t) * sin (/ k * t))).
Proof.
  intros t Ht. pose proof (angle t Ht) as A. assert (0 < sin (/ k * t)) as P by (apply sin_gt_0; lra).
  apply lim_eq with ((- sin (/ k * t) * / k * sin (/ k * t) - cos (/ k * t) * / k * cos (/ k * t)) / Rsqr (sin (/ k * t))).
  - pose proof (sin2_cos2 (/ k * t)) as SC. unfold Rsqr in *. replace (- sin (/ k * t) * / k * sin (/ k * t) - cos (/ k * t) * / k * cos (/ k * t)) with (- / k * 1) by (rewrite <- SC; ring). field. split; lra.
  - apply (derivable_pt_lim_div (fun t => cos (/ k * t)) (fun t => sin (/ k * t))); [apply lim_cos_lin|apply lim_sin_lin|lra].
Qed.
Lemma gap_mono : forall e, 0 < e <= T -> gap e <= gap T.
Proof.
  intros e He. destruct HM as [C D].
  apply (mono breaks gap (fun t => g * (k / 2) - / (2 * g) * ((2 * v t * (- g * sin (th t))) * cot t + v t * v t * (- / k * / (sin (/ k * t) * sin (/ k * t)))) - cos (th t) * v t)); [lra| |].
  - intros c Hc. destruct (C c ltac:(lra)) as (Cv & Cx & _). unfold gap. apply cont_minus; [|exact Cx]. apply cont_minus; [eapply cont_of_lim, lim_lin|].
    apply (cont_scal (fun t => v t * v t * cot t)). apply (cont_mult (fun t => v t * v t) cot); [now apply cont_mult|]. eapply cont_of_lim, cot_lim. lra.
  - intros c Hc Hn. destruct (D c ltac:(lra) Hn) as (Dv & Dx & _). split.
    + unfold gap. apply lim_minus; [|exact Dx]. apply lim_minus; [apply lim_lin|]. apply (lim_scal (fun t => v t * v t * cot t)). apply (lim_mult (fun t => v t * v t) cot); [now apply lim_sq|apply cot_lim; lra].
    + pose proof (angle c ltac:(lra)) as A. assert (0 < sin (/ k * c)) as P by (apply sin_gt_0; lra).
      set (s := sin (/ k * c)) in *. set (w := v c / g). set (q := cot c).
      assert (/ (s * s) = 1 + q * q) as Q. { unfold q, cot. fold s. pose proof (sin2_cos2 (/ k * c)) as SC. unfold Rsqr in SC. fold s in SC. replace (/ (s * s)) with ((s * s + cos (/ k * c) * cos (/ k * c)) / (s * s)) by (rewrite SC; field; lra). field. lra. }
      rewrite Q. replace (v c) with (g * w) by (unfold w; field; lra).
      pose proof (sin2_cos2 (th c)) as SC. unfold Rsqr in SC.
      assert (g * (k / 2) - / (2 * g) * ((2 * (g * w) * (- g * sin (th c))) * q + (g * w) * (g * w) * (- / k * (1 + q * q))) - cos (th c) * (g * w) =
              g / (2 * k) * ((w - k * cos (th c)) * (w - k * cos (th c)) + (w * q + k * sin (th c)) * (w * q + k * sin (th c)))) as E.
      { transitivity (g * (k / 2) * (sin (th c) * sin (th c) + cos (th c) * cos (th c)) - / (2 * g) * ((2 * (g * w) * (- g * sin (th c))) * q + (g * w) * (g * w) * (- / k * (1 + q * q))) - cos (th c) * (g * w)); [rewrite SC; ring|]. field. split; lra. }
      rewrite E. apply Rmult_le_pos; [apply Rlt_le, Rdiv_lt_0_compat; lra|]. pose proof (Rle_0_sqr (w - k * cos (th c))). pose proof (Rle_0_sqr (w * q + k * sin (th c))). unfold Rsqr in *. lra.
Qed.
Lemma gap_start : forall e, 0 < e <= T -> - (g * (k / 2) + g * T) * e <= gap e.
Proof.
  intros e He. unfold gap. pose proof (angle e ltac:(lra)) as A. assert (0 < sin (/ k * e)) as P by (apply sin_gt_0; lra). pose proof (speed e ltac:(lra)) as Sp. pose proof (distance e ltac:(lra)) as Ds.
  assert (v e * v e <= g * e * (g * e)) as V2. { replace (v e * v e) with (Rabs (v e) * Rabs (v e)) by (rewrite <- Rabs_mult; apply Rabs_right, Rle_ge, (Rle_0_sqr (v e))). pose proof (Rabs_pos (v e)). apply Rmult_le_compat; lra. }
  assert (cot e * e <= k) as Ck.
  { unfold cot. pose proof (ucos (/ k * e) ltac:(lra)) as U. apply Rmult_le_reg_r with (sin (/ k * e)); [exact P|]. replace (cos (/ k * e) / sin (/ k * e) * e * sin (/ k * e)) with (k * (/ k * e * cos (/ k * e))) by (field; split; lra).
    apply Rmult_le_compat_l; lra. }
  assert (v e * v e * cot e <= g * g * k * e) as M.
  { destruct (Rle_dec (cot e) 0) as [N|N].
    - apply Rle_trans with 0; [|repeat apply Rmult_le_pos; lra]. pose proof (Rle_0_sqr (v e)) as Sq. unfold Rsqr in Sq. nra.
    - apply Rle_trans with (g * e * (g * e) * cot e); [apply Rmult_le_compat_r; lra|]. replace (g * e * (g * e) * cot e) with (g * g * e * (cot e * e)) by ring. replace (g * g * k * e) with (g * g * e * k) by ring. apply Rmult_le_compat_l; [repeat apply Rmult_le_pos; lra|exact Ck]. }
  assert (/ (2 * g) * (v e * v e * cot e) <= g * (k / 2) * e) as M'.
  { replace (g * (k / 2) * e) with (/ (2 * g) * (g * g * k * e)) by (field; lra). apply Rmult_le_compat_l; [|exact M]. apply Rlt_le, Rinv_0_lt_compat. lra. }
  assert (g * (e * e) <= g * T * e) by (replace (g * T * e) with (g * (T * e)) by ring; apply Rmult_le_compat_l; [lra|apply Rmult_le_compat_r; lra]). assert (0 <= g * (k / 2) * e) by (repeat apply Rmult_le_pos; lra). lra.
Qed.
Lemma gap_nonneg : 0 <= gap T.
Proof.
  destruct (Rle_dec 0 (gap T)) as [H|H]; [exact H|exfalso]. set (c := g * (k / 2) + g * T). assert (0 < c) as Hc. { unfold c. pose proof (Rmult_lt_0_compat g (k / 2) Hg ltac:(lra)). pose proof (Rmult_lt_0_compat g T Hg HT). lra. }
  set (e := Rmin T (- gap T / (2 * c))). assert (0 < - gap T / (2 * c)) by (apply Rdiv_lt_0_compat; lra).
  assert (0 < e <= T) as He by (unfold e; split; [apply Rmin_glb_lt; lra|apply Rmin_l]).
  pose proof (gap_start e He) as A. pose proof (gap_mono e He) as B. fold c in A.
  assert (c * e <= - gap T / 2) as D. { apply Rle_trans with (c * (- gap T / (2 * c))); [apply Rmult_le_compat_l; [lra|apply Rmin_r]|]. apply Req_le. field. lra. }
  lra.
Qed.
Lemma reach_bound : x T <= g * (k / 2) * T + y T * (cos (/ k * T) / sin (/ k * T)).
Proof.
  pose proof gap_nonneg as G. unfold gap in G. rewrite (energy T ltac:(lra)) in G. replace (/ (2 * g) * (-2 * g * y T * cot T)) with (- (y T * cot T)) in G by (field; lra). unfold cot in G. lra.
Qed.
End Ride.
