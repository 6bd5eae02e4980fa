(** C55: a finding on the default tire, and an example. *)
From Coq Require Import Ratan Rpower.
From Verif Require Import Base RBase UtilsModel RaceProofs4 PacModel PacSpec PacProofs PacProps PacProps3 PacProps4.

Lemma pi_ge : 31 / 10 < PI.
Proof.
  destruct (Rlt_dec (31 / 10) PI) as [|H]; [assumption|]. exfalso. assert (PI <= 31 / 10) as L by lra. pose proof PI_RGT_0. pose proof PI2_3_2.
  assert (sin (PI / 6) <= sin (31 / 60)) as S1 by (apply sin_incr_1; lra). rewrite sin_PI6 in S1. destruct (pre_sin_bound (31 / 60) 0 ltac:(lra) ltac:(lra)) as [_ S2]. unfold sin_approx, sum_f_R0, sin_term in S2. cbn [Nat.mul Nat.add pow fact] in S2. rewrite !S_INR in S2 || idtac.
  assert (sin (31 / 60) <= 31 / 60 - (31 / 60) ^ 3 / 6 + (31 / 60) ^ 5 / 120) as S3.
  { eapply Rle_trans; [exact S2|]. simpl. lra. }
  lra.
Qed.
(** Finding: in the range of validity of the default tire (its largest load, its largest slip angle) the weight of the longitudinal force, which a comment in the code says to be positive, is negative: a braking wheel is pushed forward. *)
Theorem C55_reversed_refuted : forall opt_mode inputs vx, mf_inputs inputs (204698 / 10) 0 (15 / 10) vx 0 -> exists out G, mf_forward opt_mode mf_default inputs = Ok out /\ dget "Gxa" out = Some (Some G) /\ G < 0.
Proof.
  intros opt_mode inputs vx HI. assert (in_range (204698 / 10) 0) as HR by (unfold in_range; lra).
  destruct (C55_default_defined opt_mode inputs _ _ _ _ _ HI HR) as (Fx & Fy & Mx & My & Mz & Kxk & G & Kya & Gyk & GSum & H & _). eexists _, G. split; [exact H|]. split; [reflexivity|].
  destruct (has_fx opt_mode mf_default dp inputs _ _ _ _ _ _ Fx (dp_given opt_mode) HI H eq_refl) as (f & G1 & E1 & LC & L). assert (G1 = G) as -> by (cbn in E1; congruence). clear E1.
  assert (f = df (204698 / 10)) as ->. { destruct LC as [N E]. destruct (df_load (204698 / 10)) as [_ E']. rewrite E in E' at 1. apply Rmult_eq_reg_l in E'; [lra|exact N]. }
  destruct L as (sD & sx & B & F0 & _ & _ & _ & _ & _ & _ & _ & E1 & _). pose proof (d_gx (204698 / 10) 0 ltac:(lra)) as GX. set (hh := hill _ _ _) in GX. fold hh in E1.
  assert (hill (dp "RCX1") (dp "REX1" + dp "REX2" * df (204698 / 10)) (dp "RBX1" * dp "LXAL" / sqrt (1 + dp "RBX2" * 0 * (dp "RBX2" * 0)) * (15 / 10 + dp "RHX1")) < 0) as HN; [|nra].
  replace (1 + dp "RBX2" * 0 * (dp "RBX2" * 0)) with 1 by ring. rewrite sqrt_1. unfold hill, bend, df. dflt. set (E := Rmin 1 _). assert (-73247 / 10000 <= E <= -73244 / 10000) as HE by (unfold E, Rmin; destruct (Rle_dec _ _); lra).
  set (x := 9509 / 1000 * 1 / 1 * _). assert (x = 1435896085 / 100000000 + (x - 1435896085 / 100000000)) as Ex by ring. assert (1435 / 100 <= x <= 1436 / 100) as Hx by (unfold x; lra). clear Ex.
  pose proof pi_le. pose proof pi_ge. pose proof (atan_bound x) as [_ AX]. set (a := x - E * (x - atan x)). assert (107 <= a) as Ha. { unfold a. assert (12 + 75 / 100 <= x - atan x) by lra. nra. }
  assert (atan a = PI / 2 - atan (/ a)) as EA by (rewrite atan_inv by lra; lra). pose proof (atan_le (/ a)) as Q. assert (0 < / a <= / 107) as Hi by (split; [apply Rinv_0_lt_compat; lra|apply Rinv_le_contravar; lra]). specialize (Q ltac:(lra)).
  apply cos_lt_0; rewrite EA; lra.
Qed.
Print Assumptions C55_reversed_refuted.

(** ** Example: the default tire at its nominal load has the force curves that the theorems ask for, and reaches its peak forces *)
Definition at_nominal (kappa alpha : R) : dict R := [("Fz", 94166 / 10); ("kappa", kappa); ("alpha", alpha); ("vx", 30); ("gamma", 0)].
Definition out_of (name : string) (kappa alpha : R) : R := match mf_forward false mf_default (at_nominal kappa alpha) with Ok out => match dget name out with Some (Some v) => v | _ => 0 end | Raise _ => 0 end.
Example C55_nonvacuous : let Fx := fun kappa => out_of "Fx" kappa 0 in let Fy := fun alpha => out_of "Fy" 0 alpha in let Kx := out_of "Kxk" 0 0 in let Ky := out_of "Kya" 0 0 in
  load_change dp (94166 / 10) 0 /\ long_curve false mf_default (94166 / 10) 30 0 Fx Kx /\ lat_curve false mf_default (94166 / 10) 30 0 Fy Ky /\
  (exists kappa, 0 < kappa + long_shift dp 0 /\ Fx kappa = long_offset dp 0 (94166 / 10) + 885 / 1000 * (94166 / 10)) /\ (exists alpha, 0 < alpha + lat_shift dp 0 0 /\ Fy alpha = lat_offset dp 0 0 (94166 / 10) - 8271 / 10000 * (94166 / 10)).
Proof.
  intros Fx Fy Kx Ky. assert (load_change dp (94166 / 10) 0) as LC by (unfold load_change; dflt; lra). assert (in_range (94166 / 10) 0) as HR by (unfold in_range; lra).
  assert (forall kappa alpha, mf_inputs (at_nominal kappa alpha) (94166 / 10) kappa alpha 30 0) as MI by (intros; repeat split; reflexivity).
  assert (forall kappa alpha, exists out, mf_forward false mf_default (at_nominal kappa alpha) = Ok out /\ (forall n, In n ["Fx"; "Fy"; "Kxk"; "Kya"] -> dget n out = Some (Some (out_of n kappa alpha))) /\ 0 < out_of "Kxk" kappa alpha /\ out_of "Kya" kappa alpha < 0) as OD.
  { intros kappa alpha. destruct (C55_default_defined false _ _ _ _ _ _ (MI kappa alpha) HR) as (a1 & a2 & a3 & a4 & a5 & a6 & a7 & a8 & a9 & a10 & H & P1 & P2). eexists. split; [exact H|]. unfold out_of. rewrite H. split; [|split; assumption]. intros n [<-|[<-|[<-|[<-|[]]]]]; reflexivity. }
  assert (forall f, load_change dp (94166 / 10) f -> f = 0) as UF. { intros f (N & E). unfold load_change in LC. dflt_in E. lra. }
  assert (forall kappa alpha, out_of "Kxk" kappa alpha = Kx) as KX.
  { assert (forall kappa alpha, out_of "Kxk" kappa alpha = long_stiffness dp 0 (94166 / 10)) as A; [|intros; unfold Kx; now rewrite !A]. intros kappa alpha. destruct (OD kappa alpha) as (out & H & HD & _). destruct (C55_forces false mf_default dp _ _ _ _ _ _ out (dp_given false) (MI kappa alpha) H) as (L & _ & _ & _).
    destruct (has_fx false mf_default dp _ _ _ _ _ _ out _ (dp_given false) (MI kappa alpha) H (HD "Fx" ltac:(cbn; tauto))) as (f & G & EG & L1 & L2). rewrite (UF f L1) in L2. destruct (proj2 (L (out_of "Fx" kappa alpha) (long_stiffness dp 0 (94166 / 10)) G)) as (_ & E & _); [exists 0; auto|]. rewrite (HD "Kxk" ltac:(cbn; tauto)) in E. congruence. }
  assert (forall kappa alpha, out_of "Kya" kappa alpha = Ky) as KY.
  { assert (forall kappa alpha kappa' alpha', out_of "Kya" kappa alpha = out_of "Kya" kappa' alpha') as A; [|intros; apply A].
    assert (forall kappa alpha, lat_stiffness dp 0 (94166 / 10) (out_of "Kya" kappa alpha)) as A.
    { intros kappa alpha. destruct (OD kappa alpha) as (out & H & HD & _). destruct (has_fy false mf_default dp _ _ _ _ _ _ out _ (dp_given false) (MI kappa alpha) H (HD "Fy" ltac:(cbn; tauto))) as (f & K & G & B & EK & _ & L1 & L2). destruct L2 as (sD & sx & F0 & _ & _ & LS & _). rewrite (HD "Kya" ltac:(cbn; tauto)) in EK. injection EK as <-. exact LS. }
    intros kappa alpha kappa' alpha'. destruct (A kappa alpha) as (N & r & R1 & E1). destruct (A kappa' alpha') as (_ & r' & R2 & E2). assert (dp "LFZO" * dp "FNOMIN" * dp "PKY2" <> 0) as NZ by (dflt; lra). assert (r' = r) as -> by (apply (Rmult_eq_reg_r (dp "LFZO" * dp "FNOMIN" * dp "PKY2")); [rewrite R1, R2; reflexivity|exact NZ]). rewrite <- E2 in E1. apply Rmult_eq_reg_r in E1; [exact E1|nra]. }
  assert (long_curve false mf_default (94166 / 10) 30 0 Fx Kx) as HX. { intro kappa. destruct (OD kappa 0) as (out & H & HD & _). exists (at_nominal kappa 0), out. split; [apply MI|]. split; [exact H|]. split; [apply (HD "Fx"); cbn; tauto|]. rewrite <- (KX kappa 0). apply (HD "Kxk"); cbn; tauto. }
  assert (lat_curve false mf_default (94166 / 10) 30 0 Fy Ky) as HY. { intro alpha. destruct (OD 0 alpha) as (out & H & HD & _). exists (at_nominal 0 alpha), out. split; [apply MI|]. split; [exact H|]. split; [apply (HD "Fy"); cbn; tauto|]. rewrite <- (KY 0 alpha). apply (HD "Kya"); cbn; tauto. }
  split; [exact LC|]. split; [exact HX|]. split; [exact HY|]. destruct (OD 0 0) as (_ & _ & _ & PK & NK). fold Kx in PK. fold Ky in NK. destruct (C55_peak false mf_default dp (94166 / 10) 30 0 0 (dp_given false) LC) as [PX PY].
  assert (long_peak dp 0 0 (94166 / 10) = 885 / 1000 * (94166 / 10)) as ED by (unfold long_peak; dflt; lra). assert (lat_friction dp 0 0 * (94166 / 10) = 8271 / 10000 * (94166 / 10)) as ED' by (unfold lat_friction; dflt; lra).
  specialize (PX Fx Kx HX). specialize (PY Fy Ky HY). cbv zeta in PX, PY. rewrite ED in PX. rewrite ED' in PY. split.
  - destruct PX as (_ & PX); [dflt; lra|dflt; lra|apply Rgt_not_eq; nra|]. destruct (PX 1 (or_introl eq_refl)) as (k & Q1 & Q2 & _); [unfold long_curvature; dflt; lra|]. exists k. rewrite Rmult_1_l in Q1, Q2. split; [exact Q1|apply Q2; nra].
  - destruct PY as (_ & PY); [dflt; lra|dflt; lra|apply Rlt_not_eq; nra|]. destruct (PY 1 (or_introl eq_refl)) as (k & Q1 & _ & Q2); [unfold lat_curvature; dflt; lra|]. exists k. rewrite Rmult_1_l in Q1, Q2. split; [exact Q1|apply Q2; nra].
Qed.
Print Assumptions C55_nonvacuous.

(** the default tire has another side *)
Example C55_nonvacuous_mirror : let other := map (fun kv => (fst kv, if existsb (String.eqb (fst kv)) sided then - snd kv else snd kv)) mf_default in
  other_tire mf_default other /\ dget "RHX1" other = Some (- (10039 / 1000000)) /\ forall kappa alpha, exists out out', mf_forward false mf_default (at_nominal kappa alpha) = Ok out /\ mf_forward false other (at_nominal kappa alpha) = Ok out'.
Proof.
  intro other. assert (other_tire mf_default other) as HO. { intro n. unfold other. generalize mf_default. intro d. induction d as [|[k v] d IH]; [reflexivity|]. cbn [map fst snd dget]. destruct (String.eqb n k) eqn:E; [apply String.eqb_eq in E; now subst k|exact IH]. }
  split; [exact HO|]. split; [reflexivity|]. intros kappa alpha.
  assert (forall n, In n ["Fz"; "kappa"; "alpha"; "vx"; "gamma"] -> dget n (at_nominal kappa alpha) <> None) as HI by (intros n [<-|[<-|[<-|[<-|[<-|[]]]]]]; discriminate).
  assert (forall n, In n (force_names ++ moment_names) -> dget n mf_default <> None) as HP by (intros n Hn; rewrite (dp_given false n Hn); discriminate).
  destruct (proj2 (C55_missing false mf_default (at_nominal kappa alpha)) HI HP) as (out & H & _). destruct (proj2 (C55_missing false other (at_nominal kappa alpha)) HI) as (out' & H' & _).
  { intros n Hn. rewrite HO. specialize (HP n Hn). destruct (dget n mf_default); congruence. }
  exists out, out'. auto.
Qed.
