(** C75, continued: the kink of the default MF5.2 tire at a load of about 3249 N. *)
From Coq Require Import Ratan Rpower Lra Lia.
From Verif Require Import Base RBase VehModel LocSpec LocProofs LocProps LocCalc LocRaceSpec LocRaceProofs LocRaceProofs2 UtilsModel PacModel PacSpec PacProofs PacProps PacProps3 PacProps4 LocPacSpec LocPacProofs LocPacProps.
Import ListNotations.
Open Scope R_scope.

Lemma one_sided : forall f g x l m (side : R), (side = 1 \/ side = -1) -> derivable_pt_lim f x l -> derivable_pt_lim g x m -> (forall t, 0 <= side * (t - x) <= 1 -> f t = g t) -> l = m.
Proof.
  intros f g x l m side HS Hf Hg E. destruct (Req_dec l m) as [H|H]; [exact H|exfalso]. assert (0 < Rabs (l - m) / 2) as P by (assert (0 < Rabs (l - m)) by (apply Rabs_pos_lt; lra); lra).
  destruct (Hf _ P) as (d1 & H1). destruct (Hg _ P) as (d2 & H2). pose proof (cond_pos d1) as P1. pose proof (cond_pos d2) as P2.
  set (h := Rmin (Rmin d1 d2) 1 / 2). assert (0 < h /\ h < d1 /\ h < d2 /\ h <= 1) as (Q1 & Q2 & Q3 & Q4).
  { unfold h, Rmin. destruct (Rle_dec d1 d2); destruct (Rle_dec _ 1); lra. }
  assert (side * h <> 0 /\ Rabs (side * h) = h) as (N & A) by (destruct HS as [->| ->]; [rewrite Rmult_1_l, Rabs_right by lra|replace (-1 * h) with (- h) by ring; rewrite Rabs_Ropp, Rabs_right by lra]; split; lra).
  specialize (H1 (side * h) N ltac:(lra)). specialize (H2 (side * h) N ltac:(lra)).
  assert (f (x + side * h) = g (x + side * h)) as E1 by (apply E; replace (x + side * h - x) with (side * h) by ring; destruct HS as [->| ->]; lra).
  assert (f x = g x) as E2 by (apply E; rewrite Rminus_diag_eq by reflexivity; lra).
  rewrite E1, E2 in H1. set (q := (g (x + side * h) - g x) / (side * h)) in *. apply Rabs_def2 in H1. apply Rabs_def2 in H2. unfold Rabs in *. destruct (Rcase_abs (l - m)); lra.
Qed.
Lemma lag_pos : forall z, 0 < z -> 0 < z - atan z.
Proof.
  intros z H. destruct (MVT_cor2 (fun t => t - atan t) (fun t => 1 - / (1 + t ^ 2)) 0 z H) as (c & E & C); [intros; apply dlim_lag|]. rewrite atan_0 in E.
  assert (/ (1 + c ^ 2) < 1) as Q. { rewrite <- Rinv_1. apply Rinv_lt_contravar; nra. } nra.
Qed.
Lemma hill_0 : forall C E, hill C E 0 = 1.
Proof. intros C E. unfold hill, bend. rewrite atan_0, Rminus_0_r, Rmult_0_r, Rminus_0_r, atan_0, Rmult_0_r. apply cos_0. Qed.
(** the load at which the limit of the curvature sets in *)
Definition kink_load : R := 94166 / 10 * (1 - 29815 / 45520).
Lemma kink_f : df kink_load = - (29815 / 45520).
Proof. unfold df, kink_load. lra. Qed.
Definition kink_kappa : R := - long_shift dp (df kink_load).
Definition kink_alpha : R := - dp "RHX1".
Definition kz : R := dp "RBX1" * dp "LXAL" / sqrt (1 + dp "RBX2" * kink_kappa * (dp "RBX2" * kink_kappa)) * dp "RHX1".
Lemma kz_pos : 0 < kz.
Proof.
  unfold kz. assert (0 < sqrt (1 + dp "RBX2" * kink_kappa * (dp "RBX2" * kink_kappa))) as P by (apply sqrt_lt_R0; nra). apply Rmult_lt_0_compat; [|dflt; lra]. apply Rdiv_lt_0_compat; [dflt; lra|exact P].
Qed.
Definition weight_at (t : R) : R := hill (dp "RCX1") (dp "REX1" + dp "REX2" * df t) kz.
Definition bare_at (t : R) : R := let D := long_peak dp (df t) 0 t in let x := kink_kappa + long_shift dp (df t) in let B := long_stiffness dp (df t) t / (dp "PCX1" * dp "LCX" * D + dp "epsilonx" * nsign D) in
  D * sin (dp "PCX1" * dp "LCX" * bend (long_curvature dp (df t) (nsign x)) (B * x)) + long_offset dp (df t) t.

(** the weight has different one-sided derivatives *)
Lemma weight_kink : forall d, ~ derivable_pt_lim weight_at kink_load d.
Proof.
  intros d H. set (C := dp "RCX1"). set (k := kz - atan kz). pose proof kz_pos as KP. pose proof (lag_pos kz KP) as LP. fold k in LP.
  set (u := fun t => kz - (dp "REX1" + dp "REX2" * df t) * k).
  assert (forall t, t <= kink_load -> weight_at t = cos (C * atan (atan kz))) as L.
  { intros t Ht. unfold weight_at, hill, bend. rewrite Rmin_left; [fold C k; do 3 f_equal; unfold k; ring|]. unfold df, kink_load in *. dflt. lra. }
  assert (forall t, kink_load <= t -> weight_at t = cos (C * atan (u t))) as G.
  { intros t Ht. unfold weight_at, hill, bend. rewrite Rmin_right; [reflexivity|]. unfold df, kink_load in *. dflt. lra. }
  assert (derivable_pt_lim u kink_load (- (dp "REX2" / (94166 / 10)) * k)) as DU.
  { apply dlim_ext with (f := fun t => (kz - (dp "REX1" - dp "REX2") * k) + (- (dp "REX2" / (94166 / 10)) * k) * t); [intro t; unfold u, df; field|].
    apply dlim_eq with (d := 0 + (- (dp "REX2" / (94166 / 10)) * k) * 1); [ring|]. apply (dlim_plus (fun _ => kz - (dp "REX1" - dp "REX2") * k) (fun t => (- (dp "REX2" / (94166 / 10)) * k) * t)); [apply dlim_const|]. apply (dlim_scal (fun t => t)). apply derivable_pt_lim_id. }
  assert (u kink_load = atan kz) as EU by (unfold u; rewrite kink_f; unfold k; dflt; lra).
  assert (derivable_pt_lim (fun t => cos (C * atan (u t))) kink_load (- sin (C * atan (atan kz)) * (C * (/ (1 + (atan kz) ^ 2) * (- (dp "REX2" / (94166 / 10)) * k))))) as DG.
  { apply (derivable_pt_lim_comp (fun t => C * atan (u t)) cos).
    - apply (dlim_scal (fun t => atan (u t))). apply (derivable_pt_lim_comp u atan); [exact DU|]. rewrite EU. apply derivable_pt_lim_atan.
    - rewrite EU. apply derivable_pt_lim_cos. }
  assert (d = 0) as E0.
  { apply (one_sided weight_at (fun _ => cos (C * atan (atan kz))) kink_load d 0 (-1)); [now right|exact H|apply dlim_const|]. intros t Ht. apply L. lra. }
  assert (d = - sin (C * atan (atan kz)) * (C * (/ (1 + (atan kz) ^ 2) * (- (dp "REX2" / (94166 / 10)) * k)))) as E1.
  { apply (one_sided weight_at (fun t => cos (C * atan (u t))) kink_load d _ 1); [now left|exact H|exact DG|]. intros t Ht. apply G. lra. }
  assert (0 < atan kz) as AP by (rewrite <- atan_0; now apply atan_increasing). assert (0 < atan (atan kz)) as AAP by (rewrite <- atan_0 at 1; now apply atan_increasing).
  assert (0 < sin (C * atan (atan kz))) as SP.
  { pose proof (atan_bound (atan kz)) as AB. assert (C = 10061 / 10000) as EC by (unfold C; dflt; reflexivity). rewrite EC. apply sin_gt_0; [nra|]. pose proof PI_RGT_0. lra. }
  assert (0 < C * (/ (1 + atan kz ^ 2) * (- (dp "REX2" / (94166 / 10)) * k))) as PP.
  { unfold C. dflt. apply Rmult_lt_0_compat; [lra|]. apply Rmult_lt_0_compat; [apply Rinv_0_lt_compat; nra|]. apply Rmult_lt_0_compat; lra. }
  nra.
Qed.
(** the force before the weight has a derivative *)
Lemma bare_smooth : exists d, derivable_pt_lim bare_at kink_load d.
Proof.
  set (D := fun w : list R => 3000 < vget 0 w < 3500). set (Fz := vget 0). pose proof (tw_coord D 1 0) as TF.
  assert (tw D 1 (fun w => df (Fz w))) as F by (unfold df, Fz; tw).
  assert (tw D 1 (fun w => long_peak dp (df (Fz w)) 0 (Fz w))) as TD by (unfold long_peak, Fz; tw).
  assert (forall w, D w -> 0 < long_peak dp (df (Fz w)) 0 (Fz w)) as PD by (intros w Hw; apply d_long; unfold in_range, Fz, D in *; lra).
  assert (tw D 1 (fun w => nsign (long_peak dp (df (Fz w)) 0 (Fz w)))) as TS by (apply (tw_sign D 1 (fun w => long_peak dp (df (Fz w)) 0 (Fz w))); [intros w L Hw; specialize (PD w Hw); lra|exact TD]).
  assert (tw D 1 (fun w => long_stiffness dp (df (Fz w)) (Fz w))) as TKX. { unfold long_stiffness. assert (tw D 1 (fun w => exp (dp "PKX3" * df (Fz w)))) as TE by (apply (tw_exp' D 1 (fun w => dp "PKX3" * df (Fz w))); tw). unfold Fz in *. tw. }
  assert (tw D 1 (fun w => long_stiffness dp (df (Fz w)) (Fz w) / (dp "PCX1" * dp "LCX" * long_peak dp (df (Fz w)) 0 (Fz w) + dp "epsilonx" * nsign (long_peak dp (df (Fz w)) 0 (Fz w))))) as TB.
  { apply (tw_div D 1 (fun w => long_stiffness dp (df (Fz w)) (Fz w)) (fun w => dp "PCX1" * dp "LCX" * long_peak dp (df (Fz w)) 0 (Fz w) + dp "epsilonx" * nsign (long_peak dp (df (Fz w)) 0 (Fz w)))); [|exact TKX|tw].
    intros w L Hw. specialize (PD w Hw). unfold nsign. destruct (Rlt_dec 0 _); [|lra]. dflt. lra. }
  assert (tw D 1 (fun w => kink_kappa + long_shift dp (df (Fz w)))) as TX by (unfold long_shift; tw).
  assert (tw D 1 (fun w => long_offset dp (df (Fz w)) (Fz w))) as TO by (unfold long_offset, Fz in *; tw).
  assert (forall s, tw D 1 (fun w => long_curvature dp (df (Fz w)) s)) as TC by (intro s; unfold long_curvature; tw).
  assert (forall w, D w -> - (654866 / 1000000) - 3 / 100 <= df (Fz w) <= - (62 / 100)) as HD by (intros w Hw; unfold df, Fz, D in *; lra).
  pose proof (tw_sided D 1 (fun s w => long_curvature dp (df (Fz w)) s) (fun w => long_stiffness dp (df (Fz w)) (Fz w) / (dp "PCX1" * dp "LCX" * long_peak dp (df (Fz w)) 0 (Fz w) + dp "epsilonx" * nsign (long_peak dp (df (Fz w)) 0 (Fz w)))) (fun w => kink_kappa + long_shift dp (df (Fz w)))
    ltac:(intros w L Hw; specialize (HD w Hw); unfold long_curvature; dflt; nra) ltac:(intros w L Hw; specialize (HD w Hw); unfold long_curvature; dflt; nra) (TC 1) (TC (-1)) TB TX) as TBE. cbv beta in TBE.
  assert (tw D 1 (fun w => bare_at (Fz w))) as (H & g & G & _) by (unfold bare_at; cbv zeta; tw).
  exists (g [kink_load] 0%nat). assert (D [kink_load]) as DK by (unfold D, vget, kink_load; cbn; lra). exact (G [kink_load] 0%nat eq_refl DK ltac:(lia)).
Qed.
Lemma bare_nz : bare_at kink_load <> 0.
Proof.
  unfold bare_at. cbv zeta. assert (kink_kappa + long_shift dp (df kink_load) = 0) as -> by (unfold kink_kappa; ring). rewrite Rmult_0_r. unfold bend. rewrite atan_0, Rminus_0_r, Rmult_0_r, Rminus_0_r, atan_0, Rmult_0_r, sin_0, Rmult_0_r, Rplus_0_l.
  rewrite kink_f. unfold long_offset, kink_load. dflt. lra.
Qed.

(** At this load, with the longitudinal slip and the slip angle at which the shifts cancel, the longitudinal force of the default tire is defined around, but has no derivative with respect to the load. *)
Theorem C75_kink_refuted : exists Fz kappa alpha, 3248 < Fz < 3250 /\ forall opt_mode vx,
  (forall t, 3000 < t < 3500 -> exists out F, mf_forward opt_mode mf_default [("Fz", t); ("kappa", kappa); ("alpha", alpha); ("vx", vx); ("gamma", 0)] = Ok out /\ dget "Fx" out = Some (Some F)) /\
  forall fx, (forall t out F, 3000 < t < 3500 -> mf_forward opt_mode mf_default [("Fz", t); ("kappa", kappa); ("alpha", alpha); ("vx", vx); ("gamma", 0)] = Ok out -> dget "Fx" out = Some (Some F) -> fx t = F) ->
  forall d, ~ derivable_pt_lim fx Fz d.
Proof.
  exists kink_load, kink_kappa, kink_alpha. split; [unfold kink_load; lra|]. intros o vx.
  assert (forall t, 3000 < t < 3500 -> 0 < weight_at t) as WP.
  { intros t Ht. apply d_gx. lra. }
  assert (forall t, 3000 < t < 3500 -> exists out, mf_forward o mf_default [("Fz", t); ("kappa", kink_kappa); ("alpha", kink_alpha); ("vx", vx); ("gamma", 0)] = Ok out /\ dget "Fx" out = Some (Some (bare_at t / weight_at t))) as K.
  { intros t Ht. assert (mf_inputs [("Fz", t); ("kappa", kink_kappa); ("alpha", kink_alpha); ("vx", vx); ("gamma", 0)] t kink_kappa kink_alpha vx 0) as HI by (repeat split). set (inputs := [("Fz", t); _; _; _; _]) in *.
    destruct (proj2 (C55_missing o mf_default inputs)) as (out & E & _).
    - intros nm Hn. destruct HI as (A1 & B1 & C1 & E1 & E2). cbn [In] in Hn. destruct Hn as [<-|[<-|[<-|[<-|[<-|[]]]]]]; congruence.
    - intros nm Hn. rewrite (dp_given o nm Hn). discriminate.
    - exists out. split; [exact E|]. destruct (C55_forces o mf_default dp inputs _ _ _ _ _ out (dp_given o) HI E) as (P1 & _).
      assert (0 < long_peak dp (df t) 0 t) as PD by (apply d_long; unfold in_range; lra).
      refine (proj1 (proj2 (P1 (bare_at t / weight_at t) (long_stiffness dp (df t) t) (/ weight_at t)) _)). exists (df t). split; [apply df_load|]. unfold longitudinal. cbv zeta.
      exists (nsign (long_peak dp (df t) 0 t)), (nsign (kink_kappa + long_shift dp (df t))), (long_stiffness dp (df t) t / (dp "PCX1" * dp "LCX" * long_peak dp (df t) 0 t + dp "epsilonx" * nsign (long_peak dp (df t) 0 t))), (bare_at t).
      assert (dp "PCX1" * dp "LCX" * long_peak dp (df t) 0 t + dp "epsilonx" * nsign (long_peak dp (df t) 0 t) <> 0) as N by (unfold nsign; destruct (Rlt_dec 0 _); [|lra]; dflt; lra).
      split; [apply nsign_is|]. split; [apply nsign_is|]. split; [reflexivity|]. split; [exact N|]. split; [field; exact N|]. split; [reflexivity|]. specialize (WP t Ht). unfold weight_at, kz in WP |- *. split; [lra|]. split.
      + assert (kink_alpha + dp "RHX1" = 0) as -> by (unfold kink_alpha; ring). rewrite Rmult_0_r. rewrite hill_0. field. lra.
      + unfold Rdiv. ring. }
  split; [intros t Ht; destruct (K t Ht) as (out & E & X); eauto|]. intros fx HF d H.
  assert (forall t, 3000 < t < 3500 -> fx t = bare_at t / weight_at t) as EF by (intros t Ht; destruct (K t Ht) as (out & E & X); exact (HF t out _ Ht E X)).
  assert (3000 < kink_load < 3500) as HK by (unfold kink_load; lra). destruct bare_smooth as (b & HB). pose proof bare_nz as NB. pose proof (WP _ HK) as W0.
  assert (fx kink_load <> 0) as NF by (rewrite (EF _ HK); unfold Rdiv; apply Rmult_integral_contrapositive; split; [exact NB|apply Rinv_neq_0_compat; lra]).
  pose proof (derivable_pt_lim_div bare_at fx kink_load b d HB H NF) as DW.
  destruct (continuous_neq_0 bare_at kink_load (derivable_continuous_pt _ _ (exist _ b HB)) NB) as (e & HE).
  refine (weight_kink _ (dlim_near (bare_at / fx)%F weight_at kink_load _ (Rmin e 200) _ _ DW)); [apply Rmin_pos; [apply cond_pos|lra]|].
  intros t Ht. pose proof (Rmin_l e 200). pose proof (Rmin_r e 200). specialize (HE (t - kink_load) ltac:(lra)). replace (kink_load + (t - kink_load)) with t in HE by ring.
  assert (3000 < t < 3500) as HT by (apply Rabs_def2 in Ht; unfold kink_load in *; lra). unfold div_fct. rewrite (EF t HT). specialize (WP t HT). field; repeat split; (exact HE || lra).
Qed.
Print Assumptions C75_kink_refuted.
