(** C55: tires without load; the default tire. *)
From Coq Require Import Ratan Rpower.
From Verif Require Import Base RBase UtilsModel RaceProofs4 PacModel PacSpec PacProofs PacProps PacProps3.

(** Finding: at zero load the forces are 0 / 0, for every tire; [epsilonx * sign(Dx)] does not protect the quotient, since the sign of 0 is 0. *)
Theorem C55_zero_load_refuted : forall opt_mode params p inputs kappa alpha vx gamma out, given params opt_mode p -> mf_inputs inputs 0 kappa alpha vx gamma -> mf_forward opt_mode params inputs = Ok out ->
  dget "Fx" out = Some None /\ dget "Fy" out = Some None.
Proof.
  intros opt_mode params p inputs kappa alpha vx gamma out GI HI H. assert (forall n, In n ["Fx"; "Fy"] -> dget n out <> None) as N.
  { intros n Hn. rewrite (given_forward opt_mode params p inputs 0 kappa alpha vx gamma GI HI) in H. cbv zeta in H. assert (forall A (x y : A), Ok x = Ok y -> x = y) as OI by (intros A x y E; congruence). apply OI in H. destruct Hn as [<-|[<-|[]]]; rewrite <- H; discriminate. }
  split.
  - destruct (dget "Fx" out) as [[Fx|]|] eqn:E; [exfalso|reflexivity|exfalso; revert E; apply N; cbn; tauto]. destruct (has_fx opt_mode params p inputs 0 kappa alpha vx gamma out Fx GI HI H E) as (f & G & _ & _ & L).
    destruct L as (sD & sx & B & F0 & SD & _ & _ & NZ & _). destruct SD as (_ & _ & SD). assert (long_peak p f gamma 0 = 0) as Z by (unfold long_peak; ring). apply NZ. rewrite (SD Z), Z. ring.
  - destruct (dget "Fy" out) as [[Fy|]|] eqn:E; [exfalso|reflexivity|exfalso; revert E; apply N; cbn; tauto]. destruct (has_fy opt_mode params p inputs 0 kappa alpha vx gamma out Fy GI HI H E) as (f & K & G & B & _ & _ & _ & L).
    destruct L as (sD & sx & F0 & SD & _ & _ & NZ & _). destruct SD as (_ & _ & SD). assert (lat_friction p f gamma * 0 = 0) as Z by ring. apply NZ. rewrite (SD Z), Z. ring.
Qed.
Print Assumptions C55_zero_load_refuted.

(** otherwise only the weights can be undefined *)
Lemma long_exists : forall p f kappa alpha gamma Fz, let D := long_peak p f gamma Fz in p "PCX1" * p "LCX" * D + p "epsilonx" * nsign D <> 0 ->
  hill (p "RCX1") (p "REX1" + p "REX2" * f) (p "RBX1" * p "LXAL" / sqrt (1 + p "RBX2" * kappa * (p "RBX2" * kappa)) * p "RHX1") <> 0 -> exists Fx G, longitudinal p f kappa alpha gamma Fz Fx (long_stiffness p f Fz) G.
Proof.
  intros p f kappa alpha gamma Fz D HN HH. unfold longitudinal. cbv zeta. fold D. set (hh := hill _ _ (_ * p "RHX1")) in *. set (ht := hill (p "RCX1") (p "REX1" + p "REX2" * f) (p "RBX1" * p "LXAL" / sqrt (1 + p "RBX2" * kappa * (p "RBX2" * kappa)) * (alpha + p "RHX1"))).
  set (B := long_stiffness p f Fz / (p "PCX1" * p "LCX" * D + p "epsilonx" * nsign D)). set (F0 := D * curve (p "PCX1" * p "LCX") (long_curvature p f (nsign (kappa + long_shift p f))) (B * (kappa + long_shift p f)) + long_offset p f Fz).
  exists (ht / hh * F0), (ht / hh), (nsign D), (nsign (kappa + long_shift p f)), B, F0. split; [apply nsign_of|]. split; [apply nsign_of|]. split; [reflexivity|]. split; [exact HN|]. split; [unfold B; field; exact HN|]. split; [reflexivity|]. split; [exact HH|]. split; [field; exact HH|reflexivity].
Qed.
Lemma lat_exists : forall p f kappa alpha gamma Fz K, let D := lat_friction p f gamma * Fz in lat_stiffness p gamma Fz K -> p "PCY1" * p "LCY" * D + p "epsilony" * nsign D <> 0 ->
  hill (p "RCY1") (p "REY1" + p "REY2" * f) (p "RBY1" * p "LYKA" / sqrt (1 + p "RBY2" * (alpha - p "RBY3") * (p "RBY2" * (alpha - p "RBY3"))) * (p "RHY1" + p "RHY2" * f)) <> 0 -> exists Fy G B, lateral p f kappa alpha gamma Fz Fy K G B.
Proof.
  intros p f kappa alpha gamma Fz K D HK HN HH. unfold lateral. cbv zeta. fold D. set (hh := hill _ _ (_ * (p "RHY1" + _))) in *.
  set (ht := hill (p "RCY1") (p "REY1" + p "REY2" * f) (p "RBY1" * p "LYKA" / sqrt (1 + p "RBY2" * (alpha - p "RBY3") * (p "RBY2" * (alpha - p "RBY3"))) * (kappa + (p "RHY1" + p "RHY2" * f)))).
  set (B := K / (p "PCY1" * p "LCY" * D + p "epsilony" * nsign D)). set (F0 := D * curve (p "PCY1" * p "LCY") (lat_curvature p f gamma (nsign (alpha + lat_shift p f gamma))) (B * (alpha + lat_shift p f gamma)) + lat_offset p f gamma Fz).
  exists (ht / hh * F0 + slip_side_force p f kappa alpha gamma Fz), (ht / hh), B, (nsign D), (nsign (alpha + lat_shift p f gamma)), F0. split; [apply nsign_of|]. split; [apply nsign_of|]. split; [exact HK|]. split; [exact HN|]. split; [unfold B; field; exact HN|]. split; [reflexivity|]. split; [exact HH|]. split; [field; exact HH|reflexivity].
Qed.

(** ** The default tire *)
Definition dp : string -> R := prm mf_default.
Ltac dflt := repeat match goal with |- context [dp ?n] => let v := eval lazy beta iota zeta delta [dp prm dget mf_default String.eqb Ascii.eqb Bool.eqb] in (dp n) in change (dp n) with v end.
Ltac dflt_in H := repeat match type of H with context [dp ?n] => let v := eval lazy beta iota zeta delta [dp prm dget mf_default String.eqb Ascii.eqb Bool.eqb] in (dp n) in change (dp n) with v in H end.
Lemma dp_given : forall opt_mode, given mf_default opt_mode dp.
Proof.
  intro opt_mode. assert (forallb (fun n => dmem n mf_default) (force_names ++ moment_names) = true) as A by reflexivity. rewrite forallb_forall in A. intros n Hn.
  assert (In n (force_names ++ moment_names)) as Hn' by (destruct opt_mode; [rewrite app_nil_r in Hn; apply in_or_app; now left|exact Hn]). specialize (A n Hn'). unfold dp, prm. unfold dmem in A. destruct (dget n mf_default); [reflexivity|discriminate].
Qed.
Definition df (Fz : R) : R := Fz / (94166 / 10) - 1.
Lemma df_load : forall Fz, load_change dp Fz (df Fz).
Proof. intro Fz. unfold load_change, df. dflt. split; [lra|field]. Qed.
Lemma df_range : forall Fz, 100 <= Fz <= 204698 / 10 -> - (99 / 100) <= df Fz <= 1174 / 1000.
Proof. intros Fz H. unfold df. lra. Qed.
Lemma atan_le : forall y, 0 <= y -> 0 <= atan y <= y.
Proof.
  intros y Hy. destruct (Req_dec y 0) as [->|Ny]; [rewrite atan_0; lra|]. assert (0 < y) as Py by lra. split; [left; rewrite <- atan_0; apply atan_increasing; lra|].
  destruct (MVT_cor2 atan (fun c => / (1 + c ^ 2)) 0 y Py) as (c & E & Hc). { intros c _. apply derivable_pt_lim_atan. }
  rewrite atan_0, !Rminus_0_r in E. rewrite E. assert (/ (1 + c ^ 2) <= 1); [|nra]. rewrite <- Rinv_1. apply Rinv_le_contravar; nra.
Qed.
Lemma hill_even : forall C E x, hill C E (- x) = hill C E x.
Proof. intros C E x. unfold hill. rewrite bend_odd, <- Ropp_mult_distr_r. apply cos_neg. Qed.
Lemma hill_pos : forall C E x, 0 <= C <= 11 / 10 -> -8 <= E -> Rabs x <= 1 / 10 -> 0 < hill C E x.
Proof.
  assert (forall C E x, 0 <= C <= 11 / 10 -> -8 <= E -> 0 <= x <= 1 / 10 -> 0 < hill C E x) as P.
  { intros C E x HC HE Hx. unfold hill, bend. set (e := Rmin 1 E). assert (-8 <= e <= 1) as He by (unfold e, Rmin; destruct (Rle_dec 1 E); lra). pose proof (atan_le x ltac:(lra)) as [A1 A2].
    assert (0 <= x - e * (x - atan x) <= 9 / 10) as Ha by (set (d := x - atan x) in *; assert (0 <= d <= x) by (unfold d; lra); assert (atan x = x - d) by (unfold d; ring); assert (e * d <= d) by nra; assert (- (8 * d) <= e * d) by nra; split; lra). set (a := x - e * (x - atan x)) in *. pose proof (atan_le a ltac:(lra)) as [B1 B2]. pose proof PI2_3_2. assert (0 <= C * atan a <= 11 / 10 * (9 / 10)) as Q by (split; [apply Rmult_le_pos; lra|apply Rmult_le_compat; lra]). apply cos_gt_0; lra. }
  intros C E x HC HE Hx. destruct (Rle_dec 0 x) as [L|L]; [rewrite Rabs_right in Hx by lra; apply P; lra|]. rewrite Rabs_left in Hx by lra. rewrite <- hill_even. apply P; lra.
Qed.
(** the slope factor of the weights is largest at 0 *)
Lemma root_le : forall b y, Rabs (b / sqrt (1 + y * y)) <= Rabs b.
Proof.
  intros b y. assert (1 <= 1 + y * y) as H by nra. assert (1 <= sqrt (1 + y * y)) as Hs by (rewrite <- sqrt_1 at 1; apply sqrt_le_1_alt; exact H). unfold Rdiv. rewrite Rabs_mult, (Rabs_right (/ _)) by (left; apply Rinv_0_lt_compat; lra).
  rewrite <- (Rmult_1_r (Rabs b)) at 2. apply Rmult_le_compat_l; [apply Rabs_pos|]. assert (/ sqrt (1 + y * y) <= / 1) as Q by (apply Rinv_le_contravar; lra). rewrite Rinv_1 in Q. exact Q.
Qed.
Definition in_range (Fz gamma : R) : Prop := 100 <= Fz <= 204698 / 10 /\ - (2634 / 10000) <= gamma <= 26395 / 100000.
Lemma gamma_sq : forall Fz gamma, in_range Fz gamma -> 0 <= gamma * gamma <= 7 / 100.
Proof. intros Fz gamma (_ & H). nra. Qed.
Lemma d_long : forall Fz gamma, in_range Fz gamma -> 0 < long_peak dp (df Fz) gamma Fz.
Proof.
  intros Fz gamma HR. pose proof (gamma_sq _ _ HR) as G. destruct HR as (HF & HG). pose proof (df_range Fz HF) as D. unfold long_peak. dflt. apply Rmult_lt_0_compat; [|lra]. rewrite Rmult_1_r. apply Rmult_lt_0_compat; lra.
Qed.
Lemma d_lat : forall Fz gamma, in_range Fz gamma -> 0 < lat_friction dp (df Fz) gamma * Fz.
Proof.
  intros Fz gamma HR. pose proof (gamma_sq _ _ HR) as G. destruct HR as (HF & HG). pose proof (df_range Fz HF) as D. unfold lat_friction. dflt. apply Rmult_lt_0_compat; [|lra]. rewrite Rmult_1_r. apply Rmult_lt_0_compat; lra.
Qed.
Lemma d_kx : forall Fz, 100 <= Fz <= 204698 / 10 -> 0 < long_stiffness dp (df Fz) Fz.
Proof. intros Fz HF. pose proof (df_range Fz HF) as D. unfold long_stiffness. dflt. rewrite Rmult_1_r. apply Rmult_lt_0_compat; [|apply exp_pos]. apply Rmult_lt_0_compat; lra. Qed.
Lemma d_ky : forall Fz gamma, in_range Fz gamma -> exists K, lat_stiffness dp gamma Fz K /\ K < 0.
Proof.
  intros Fz gamma (HF & HG). unfold lat_stiffness. dflt. set (r := Fz / (1 * (94166 / 10) * (7576 / 1000))). assert (0 < r) as Hr by (unfold r; lra). assert (Rabs gamma <= 3 / 10) as A by (apply Rabs_le; lra). pose proof (Rabs_pos gamma).
  exists (-291 / 10 * (1 * (94166 / 10)) * (1 - 944 / 1000 * Rabs gamma) * 1 * (2 * r) / (1 + r * r)). split.
  - split; [lra|]. exists r. split; [unfold r; field|]. field. nra.
  - assert (0 < 291 / 10 * (1 * (94166 / 10)) * (1 - 944 / 1000 * Rabs gamma) * 1 * (2 * r) / (1 + r * r)) as Q; [|unfold Rdiv in *; lra]. apply Rdiv_lt_0_compat; [|nra]. apply Rmult_lt_0_compat; [|lra]. rewrite Rmult_1_r. apply Rmult_lt_0_compat; lra.
Qed.
Lemma d_gx : forall Fz kappa, 100 <= Fz <= 204698 / 10 -> 0 < hill (dp "RCX1") (dp "REX1" + dp "REX2" * df Fz) (dp "RBX1" * dp "LXAL" / sqrt (1 + dp "RBX2" * kappa * (dp "RBX2" * kappa)) * dp "RHX1").
Proof.
  intros Fz kappa HF. pose proof (df_range Fz HF) as D. apply hill_pos; [dflt; lra|dflt; lra|]. rewrite Rabs_mult. pose proof (root_le (dp "RBX1" * dp "LXAL") (dp "RBX2" * kappa)) as Q. set (w := Rabs (_ / _)) in *. assert (Rabs (dp "RBX1" * dp "LXAL") = 9509 / 1000) as E1 by (dflt; rewrite Rabs_right; lra).
  assert (Rabs (dp "RHX1") = 10039 / 1000000) as -> by (dflt; rewrite Rabs_right; lra). lra.
Qed.
Lemma d_gy : forall Fz alpha, 100 <= Fz <= 204698 / 10 ->
  0 < hill (dp "RCY1") (dp "REY1" + dp "REY2" * df Fz) (dp "RBY1" * dp "LYKA" / sqrt (1 + dp "RBY2" * (alpha - dp "RBY3") * (dp "RBY2" * (alpha - dp "RBY3"))) * (dp "RHY1" + dp "RHY2" * df Fz)).
Proof.
  intros Fz alpha HF. pose proof (df_range Fz HF) as D. apply hill_pos; [dflt; lra|dflt; lra|]. rewrite Rabs_mult. pose proof (root_le (dp "RBY1" * dp "LYKA") (dp "RBY2" * (alpha - dp "RBY3"))) as Q. set (w := Rabs (_ / _)) in *. assert (Rabs (dp "RBY1" * dp "LYKA") = 5042 / 1000) as E1 by (dflt; rewrite Rabs_right; lra).
  assert (Rabs (dp "RHY1" + dp "RHY2" * df Fz) <= 1 / 1000) as E2 by (dflt; apply Rabs_le; lra). assert (0 <= w) by apply Rabs_pos. pose proof (Rabs_pos (dp "RHY1" + dp "RHY2" * df Fz)). rewrite E1 in Q. nra.
Qed.

(** In the range of loads and camber angles of the default tire, all outputs are numbers, whatever the slip and the speed. *)
Theorem C55_default_defined : forall opt_mode inputs Fz kappa alpha vx gamma, mf_inputs inputs Fz kappa alpha vx gamma -> in_range Fz gamma ->
  exists Fx Fy Mx My Mz Kxk Gxa Kya Gyk GSum, mf_forward opt_mode mf_default inputs =
    Ok [("Fx", Some Fx); ("Fy", Some Fy); ("Mx", Some Mx); ("My", Some My); ("Mz", Some Mz); ("Kxk", Some Kxk); ("Gxa", Some Gxa); ("Kya", Some Kya); ("Gyk", Some Gyk); ("GSum", Some GSum)] /\ 0 < Kxk /\ Kya < 0.
Proof.
  intros opt_mode inputs Fz kappa alpha vx gamma HI HR. pose proof (proj1 HR) as HF. set (f := df Fz). destruct (d_ky Fz gamma HR) as (Ky & KY & NK).
  pose proof (d_long Fz gamma HR) as PX. pose proof (d_lat Fz gamma HR) as PY. pose proof (d_gx Fz kappa HF) as GX. pose proof (d_gy Fz alpha HF) as GY. pose proof (d_kx Fz HF) as KX. fold f in PX, PY, GX, GY, KX.
  destruct (long_exists dp f kappa alpha gamma Fz) as (Fx & G & LX); [unfold nsign; destruct (Rlt_dec 0 (long_peak dp f gamma Fz)); [dflt; lra|contradiction]|apply Rgt_not_eq; exact GX|].
  destruct (lat_exists dp f kappa alpha gamma Fz Ky) as (Fy & G' & B & LY); [exact KY|unfold nsign; destruct (Rlt_dec 0 (lat_friction dp f gamma * Fz)); [dflt; lra|contradiction]|apply Rgt_not_eq; exact GY|].
  assert (exists Mx, overturning dp gamma Fz Fy Mx) as (Mx & HX). { unfold overturning. exists (dp "UNLOADED_RADIUS" * Fz * dp "LMX" * (dp "FNOMIN" * (dp "QSX1" * dp "LVMX" - dp "QSX2" * gamma) + dp "QSX3" * Fy) / dp "FNOMIN"). assert (dp "FNOMIN" <> 0) as Hn by (dflt; lra). split; [exact Hn|field; exact Hn]. }
  assert (exists My, rolling dp Fz vx Fx My) as (My & HY). { unfold rolling. eexists. split; [dflt; lra|]. split; [dflt; lra|]. exists (vx / dp "LONGVL"). split; [dflt; field|reflexivity]. }
  assert (exists Mz, aligning dp f kappa alpha gamma Fz vx Fx (long_stiffness dp f Fz) Fy Ky B Mz) as (Mz & HZ).
  { unfold aligning. cbv zeta. eexists. exists (nsign Ky), (nsign vx). eexists _, _, _. split; [apply nsign_of|]. split; [apply nsign_of|]. split; [reflexivity|]. split; [unfold nsign; destruct (Rlt_dec 0 Ky), (Rlt_dec Ky 0); try lra; dflt; lra|].
    split; [dflt; lra|]. split; [dflt; lra|]. split; [pose proof (sqrt_pos (vx * vx + vx * tan alpha * (vx * tan alpha))); dflt; lra|]. unfold equivalent_angle. split; [eexists; split; [apply nsign_of|reflexivity]|]. split; [eexists; split; [apply nsign_of|reflexivity]|]. reflexivity. }
  set (S2 := G' * G' + G * G). assert (0 <= S2) as HS by (unfold S2; nra).
  assert (forall mx my mz, (if opt_mode then mx = 0 /\ my = 0 /\ mz = 0 else mx = Mx /\ my = My /\ mz = Mz) -> mf52 dp opt_mode Fz kappa alpha vx gamma Fx Fy mx my mz (long_stiffness dp f Fz) G Ky G' (sqrt S2)) as HM.
  { intros mx my mz Hm. exists f, B. split; [apply df_load|]. split; [exact LX|]. split; [exact LY|]. split; [split; [apply sqrt_pos|now apply sqrt_sqrt]|]. destruct opt_mode; [exact Hm|]. destruct Hm as (-> & -> & ->). auto. }
  assert (opt_mode = false -> 0 <= dp "epsilonv") as HE by (intros _; dflt; lra).
  exists Fx, Fy, (if opt_mode then 0 else Mx), (if opt_mode then 0 else My), (if opt_mode then 0 else Mz), (long_stiffness dp f Fz), G, Ky, G', (sqrt S2). split; [|split; assumption].
  apply (C55_equations opt_mode mf_default dp inputs Fz kappa alpha vx gamma (dp_given opt_mode) HI HE). apply HM. destruct opt_mode; auto.
Qed.
Print Assumptions C55_default_defined.
