(** C55: what the force curves look like. *)
From Coq Require Import Ratan Rpower.
From Verif Require Import Base RBase UtilsModel PacModel PacSpec PacProofs PacProps.

(** the forces, with their stiffnesses and weights, for every output of [forward], whether or not the other outputs are defined *)
Theorem C55_forces : forall opt_mode params p inputs Fz kappa alpha vx gamma out, given params opt_mode p -> mf_inputs inputs Fz kappa alpha vx gamma -> mf_forward opt_mode params inputs = Ok out ->
  (forall Fx K G, dget "Fx" out = Some (Some Fx) /\ dget "Kxk" out = Some (Some K) /\ dget "Gxa" out = Some (Some G) <-> exists f, load_change p Fz f /\ longitudinal p f kappa alpha gamma Fz Fx K G) /\
  (forall Fy K G, dget "Fy" out = Some (Some Fy) /\ dget "Kya" out = Some (Some K) /\ dget "Gyk" out = Some (Some G) <-> exists f B, load_change p Fz f /\ lateral p f kappa alpha gamma Fz Fy K G B) /\
  (dget "Fx" out <> Some None -> dget "Kxk" out <> Some None /\ dget "Gxa" out <> Some None) /\ (dget "Fy" out <> Some None -> dget "Kya" out <> Some None /\ dget "Gyk" out <> Some None).
Proof.
  intros opt_mode params p inputs Fz kappa alpha vx gamma out GI HI H. rewrite (given_forward opt_mode params p inputs Fz kappa alpha vx gamma GI HI) in H. cbv zeta in H. assert (forall A (x y : A), Ok x = Ok y -> x = y) as OI by (intros A x y E; congruence).
  apply OI in H. clear OI. subst out. cbn [dget String.eqb Ascii.eqb Bool.eqb]. assert (forall A (x y : A), Some x = Some y <-> x = y) as SI by (intros A x y; split; congruence). setoid_rewrite SI.
  unfold do_force_and_moments. destruct (calculate_basic p alpha vx gamma Fz) as [b|] eqn:EB.
  2:{ cbn [r_Fx r_Fy r_Kxk r_Gxa r_Kya r_Gyk]. apply basic_none in EB. split; [intros Fx K G; split; [intros (E & _); discriminate|intros (f & (E & _) & _); contradiction]|]. split; [intros Fx K G; split; [intros (E & _); discriminate|intros (f & B & (E & _) & _); contradiction]|]. split; intro E; now exfalso. }
  apply basic_ok in EB. destruct EB as (f & LC & ->). pose proof (proj1 LC) as HN.
  assert (forall f', load_change p Fz f' -> f' = f) as UF. { intros f' (_ & E'). destruct LC as [_ E]. rewrite E in E'. apply Rmult_eq_reg_l in E'; [lra|exact HN]. }
  pose proof (fun Fx K G => long_ok p f alpha vx gamma kappa Fz Fx K G) as LO. pose proof (fun Fy K G B => lat_ok p f alpha vx gamma kappa Fz Fy K G B HN) as AO. cbv zeta in LO, AO.
  destruct (calculate_Fx0 p (the_basic p f alpha vx gamma) kappa gamma Fz) as [[Fx0 mux] K0] eqn:E1. cbn [fst snd] in LO. destruct (calculate_Fx p (the_basic p f alpha vx gamma) kappa Fx0) as [fx ga] eqn:E2. cbn [fst snd] in LO.
  set (l := calculate_Fy0 p (the_basic p f alpha vx gamma) Fz) in *. destruct (calculate_Fy p (the_basic p f alpha vx gamma) Fz kappa (Fy0 l) (muy l)) as [[fy gy] sv] eqn:E3. cbn [fst snd] in AO. cbn [r_Fx r_Fy r_Kxk r_Gxa r_Kya r_Gyk].
  assert (fy <> None -> exists g v B K, gy = Some g /\ Fy0 l = Some v /\ By l = Some B /\ Kya l = Some K) as HY.
  { intro HF. assert (fy = let? g := gy in let? v := Fy0 l in Some (g * v + sv)) as EF by (unfold calculate_Fy in E3; now injection E3 as <- <- <-). destruct gy as [g|]; [|rewrite EF in HF; now exfalso]. cbn [obind] in EF. destruct (Fy0 l) as [v|] eqn:EV; [|rewrite EF in HF; now exfalso].
    unfold l, calculate_Fy0 in EV. cbn [Fy0] in EV. apply obind_some in EV. destruct EV as (B & HB & _). pose proof HB as HK. apply obind_some in HK. destruct HK as (K & HK & _). exists g, v, B, K. repeat split; [exact HB|exact HK]. }
  split; [|split; [|split]].
  - intros Fx K G. rewrite SI. split.
    + intros (H1 & H2 & H3). exists f. split; [exact LC|]. apply LO. auto.
    + intros (f' & L' & H1). rewrite (UF f' L') in H1. apply LO in H1. tauto.
  - intros Fy K G. split.
    + intros (H1 & H2 & H3). destruct HY as (g & v & B & K' & _ & _ & HB & _); [congruence|]. exists f, B. split; [exact LC|]. apply AO. auto.
    + intros (f' & B & L' & H1). rewrite (UF f' L') in H1. apply AO in H1. tauto.
  - intro HF. split; [discriminate|]. assert (fx = let? g := ga in let? v := Fx0 in Some (g * v)) as EF by (unfold calculate_Fx in E2; now injection E2 as <- <-). destruct ga; [discriminate|]. now rewrite EF in HF.
  - intro HF. destruct HY as (g & v & B & K' & -> & _ & _ & ->); [exact HF|]. split; discriminate.
Qed.
Print Assumptions C55_forces.

Lemma sign_eq : forall x s t, sign_of x s -> sign_of x t -> s = t.
Proof. intros x s t (A1 & A2 & A3) (B1 & B2 & B3). destruct (Rtotal_order x 0) as [H|[H|H]]; [rewrite A2, B2|rewrite A3, B3|rewrite A1, B1]; lra. Qed.

(** ** Values of the curves *)
Lemma curve_le : forall C E x, Rabs (curve C E x) <= 1.
Proof. intros C E x. unfold curve. pose proof (SIN_bound (C * bend E x)). apply Rabs_le. lra. Qed.
Lemma bend_odd : forall E x, bend E (- x) = - bend E x.
Proof. intros E x. unfold bend. rewrite <- atan_opp. f_equal. rewrite atan_opp. ring. Qed.
Lemma curve_odd : forall C E x, curve C E (- x) = - curve C E x.
Proof. intros C E x. unfold curve. rewrite bend_odd, <- Ropp_mult_distr_r. apply sin_neg. Qed.
Lemma curve_zero : forall C E, curve C E 0 = 0.
Proof. intros C E. unfold curve, bend. rewrite atan_0. replace (0 - Rmin 1 E * (0 - 0)) with 0 by ring. rewrite atan_0, Rmult_0_r. apply sin_0. Qed.
Lemma curve_top : forall C E, 1 < C -> E < 1 -> exists y, 0 < y /\ curve C E y = 1.
Proof.
  intros C E HC HE. pose proof PI_RGT_0 as HP. pose proof PI_4 as HP4. set (t := tan (PI / 2 / C)).
  assert (0 < PI / 2 / C < PI / 2) as HT. { split; [apply Rdiv_lt_0_compat; lra|]. apply (Rmult_lt_reg_r C); [lra|]. unfold Rdiv at 1. rewrite Rmult_assoc, Rinv_l, Rmult_1_r by lra. nra. }
  set (g := fun y => (1 - E) * y + E * atan y - t).
  assert (0 < t) as Ht by (unfold t; apply tan_gt_0; lra).
  assert (continuity g) as CG. { unfold g. apply continuity_minus; [|apply continuity_const; intros a b; reflexivity]. apply continuity_plus; apply continuity_mult; try (apply continuity_const; intros a b; reflexivity). { apply derivable_continuous, derivable_id. } intro x. apply derivable_continuous_pt. apply derivable_pt_atan. }
  set (X := (t + 2 * Rabs E + 1) / (1 - E)). pose proof (Rabs_pos E) as PE.
  assert (0 < X) as HX by (unfold X; apply Rdiv_lt_0_compat; lra).
  assert (g 0 < 0) as G0 by (unfold g; rewrite atan_0; lra).
  assert (0 < g X) as GX. { unfold g. replace ((1 - E) * X) with (t + 2 * Rabs E + 1) by (unfold X; field; lra). pose proof (atan_bound X) as [A1 A2]. pose proof (Rle_abs E). pose proof (Rle_abs (- E)) as A3. rewrite Rabs_Ropp in A3. assert (- (2 * Rabs E) <= E * atan X); [|lra]. destruct (Rle_dec 0 (atan X)); nra. }
  destruct (IVT g 0 X CG HX G0 GX) as (y & [Hy0 Hy1] & Gy). exists y. split; [destruct (Req_dec y 0) as [->|]; lra|].
  unfold curve, bend. rewrite Rmin_right by lra. assert (y - E * (y - atan y) = t) as -> by (unfold g in Gy; lra). unfold t. rewrite atan_tan by lra. replace (C * (PI / 2 / C)) with (PI / 2) by (field; lra). apply sin_PI2.
Qed.
Lemma hill_zero : forall C E, hill C E 0 = 1.
Proof. intros C E. unfold hill, bend. rewrite atan_0. replace (0 - Rmin 1 E * (0 - 0)) with 0 by ring. rewrite atan_0, Rmult_0_r. apply cos_0. Qed.

(** the slope at 0, for a curvature that may jump there *)
Lemma flat : forall (e g : R -> R) M, (forall x, Rabs (e x) <= M) -> g 0 = 0 -> derivable_pt_lim g 0 0 -> derivable_pt_lim (fun x => e x * g x) 0 0.
Proof.
  intros e g M HM G0 DG eps He. assert (0 <= M) as PM by (specialize (HM 0); pose proof (Rabs_pos (e 0)); lra). assert (0 < eps / (M + 1)) as He' by (apply Rdiv_lt_0_compat; lra). destruct (DG _ He') as (d & Hd). exists d. intros h Hh Hl. specialize (Hd h Hh Hl).
  rewrite !Rplus_0_l, !Rminus_0_r in *. rewrite G0 in *. rewrite Rmult_0_r. rewrite Rminus_0_r in *. unfold Rdiv in *. rewrite Rmult_assoc, Rabs_mult.
  apply Rle_lt_trans with (M * (eps * / (M + 1))).
  - apply Rmult_le_compat; [apply Rabs_pos|apply Rabs_pos|apply HM|]. now left.
  - apply (Rmult_lt_reg_r (M + 1)); [lra|]. rewrite !Rmult_assoc, Rinv_l, Rmult_1_r by lra. nra.
Qed.
Lemma curve_slope : forall C B (E : R -> R) M, (forall x, Rabs (Rmin 1 (E x)) <= M) -> derivable_pt_lim (fun x => curve C (E x) (B * x)) 0 (C * B).
Proof.
  intros C B E M HM. assert (derivable_pt_lim (fun x => B * x) 0 B) as DB. { pose proof (derivable_pt_lim_scal id B 0 1 (derivable_pt_lim_id 0)) as D. rewrite Rmult_1_r in D. exact D. }
  assert (derivable_pt_lim atan 0 1) as DA. { pose proof (derivable_pt_lim_atan 0) as D. replace (/ (1 + Rsqr 0)) with 1 in D by (unfold Rsqr; field). replace (/ (1 + 0 ^ 2)) with 1 in D by field. exact D. }
  assert (derivable_pt_lim (fun x => atan (B * x)) 0 B) as DAB. { pose proof (derivable_pt_lim_comp (fun x => B * x) atan 0 B 1 DB) as D. rewrite Rmult_1_l in D. apply D. now rewrite Rmult_0_r. }
  assert (derivable_pt_lim (fun x => Rmin 1 (E x) * (B * x - atan (B * x))) 0 0) as DE.
  { apply (flat _ _ M HM); [rewrite Rmult_0_r, atan_0; ring|]. replace 0 with (B - B) at 2 by ring. exact (derivable_pt_lim_minus _ _ 0 B B DB DAB). }
  assert (derivable_pt_lim (fun x => B * x - Rmin 1 (E x) * (B * x - atan (B * x))) 0 B) as DI. { pose proof (derivable_pt_lim_minus _ _ 0 B 0 DB DE) as D. rewrite Rminus_0_r in D. exact D. }
  assert (derivable_pt_lim (fun x => bend (E x) (B * x)) 0 B) as DD.
  { pose proof (derivable_pt_lim_comp (fun x => B * x - Rmin 1 (E x) * (B * x - atan (B * x))) atan 0 B 1 DI) as D. rewrite Rmult_1_l in D. apply D. clear D. rewrite Rmult_0_r, atan_0. replace (0 - Rmin 1 (E 0) * (0 - 0)) with 0 by ring. exact DA. }
  assert (derivable_pt_lim (fun x => C * bend (E x) (B * x)) 0 (C * B)) as DC by exact (derivable_pt_lim_scal (fun x => bend (E x) (B * x)) C 0 B DD).
  replace (C * B) with (1 * (C * B)) by ring. apply (derivable_pt_lim_comp (fun x => C * bend (E x) (B * x)) sin 0 (C * B) 1 DC).
  unfold bend. rewrite Rmult_0_r, atan_0. replace (0 - Rmin 1 (E 0) * (0 - 0)) with 0 by ring. rewrite atan_0, Rmult_0_r. pose proof (derivable_pt_lim_sin 0) as DS. now rewrite cos_0 in DS.
Qed.

(** ** The forces of [forward] *)
Lemma has_fx : forall opt_mode params p inputs Fz kappa alpha vx gamma out Fx, given params opt_mode p -> mf_inputs inputs Fz kappa alpha vx gamma -> mf_forward opt_mode params inputs = Ok out -> dget "Fx" out = Some (Some Fx) ->
  exists f G, dget "Gxa" out = Some (Some G) /\ load_change p Fz f /\ longitudinal p f kappa alpha gamma Fz Fx (long_stiffness p f Fz) G.
Proof.
  intros opt_mode params p inputs Fz kappa alpha vx gamma out Fx GI HI H HF. destruct (C55_forces opt_mode params p inputs Fz kappa alpha vx gamma out GI HI H) as (L & _ & D & _).
  destruct D as [D1 D2]; [congruence|]. pose proof H as H0. rewrite (given_forward opt_mode params p inputs Fz kappa alpha vx gamma GI HI) in H0. cbv zeta in H0. assert (forall A (x y : A), Ok x = Ok y -> x = y) as OI by (intros A x y E; congruence). apply OI in H0.
  assert (forall n, In n ["Kxk"; "Gxa"] -> dget n out <> None) as N. { intros n [<-|[<-|[]]]; rewrite <- H0; discriminate. }
  destruct (dget "Kxk" out) as [[K|]|] eqn:EK; [|congruence|exfalso; revert EK; apply N; cbn; tauto]. destruct (dget "Gxa" out) as [[G|]|] eqn:EG; [|congruence|exfalso; revert EG; apply N; cbn; tauto].
  destruct (proj1 (L Fx K G)) as (f & L1 & L2); [auto|]. exists f, G. split; [reflexivity|]. split; [exact L1|]. pose proof L2 as (sD & sx & B & F0 & _ & _ & EK' & _). now rewrite <- EK'.
Qed.
Lemma has_fy : forall opt_mode params p inputs Fz kappa alpha vx gamma out Fy, given params opt_mode p -> mf_inputs inputs Fz kappa alpha vx gamma -> mf_forward opt_mode params inputs = Ok out -> dget "Fy" out = Some (Some Fy) ->
  exists f K G B, dget "Kya" out = Some (Some K) /\ dget "Gyk" out = Some (Some G) /\ load_change p Fz f /\ lateral p f kappa alpha gamma Fz Fy K G B.
Proof.
  intros opt_mode params p inputs Fz kappa alpha vx gamma out Fy GI HI H HF. destruct (C55_forces opt_mode params p inputs Fz kappa alpha vx gamma out GI HI H) as (_ & L & _ & D).
  destruct D as [D1 D2]; [congruence|]. pose proof H as H0. rewrite (given_forward opt_mode params p inputs Fz kappa alpha vx gamma GI HI) in H0. cbv zeta in H0. assert (forall A (x y : A), Ok x = Ok y -> x = y) as OI by (intros A x y E; congruence). apply OI in H0.
  assert (forall n, In n ["Kya"; "Gyk"] -> dget n out <> None) as N. { intros n [<-|[<-|[]]]; rewrite <- H0; discriminate. }
  destruct (dget "Kya" out) as [[K|]|] eqn:EK; [|congruence|exfalso; revert EK; apply N; cbn; tauto]. destruct (dget "Gyk" out) as [[G|]|] eqn:EG; [|congruence|exfalso; revert EG; apply N; cbn; tauto].
  destruct (proj1 (L Fy K G)) as (f & B & L1 & L2); [auto|]. exists f, K, G, B. auto.
Qed.

(** Without slip angle the weight of the longitudinal force is 1, without longitudinal slip the weight of the lateral force is 1 and no side force is added. *)
Theorem C55_pure : forall opt_mode params p inputs Fz kappa alpha vx gamma out, given params opt_mode p -> mf_inputs inputs Fz kappa alpha vx gamma -> mf_forward opt_mode params inputs = Ok out ->
  (forall Fx, alpha = 0 -> dget "Fx" out = Some (Some Fx) -> dget "Gxa" out = Some (Some 1) /\ exists f, load_change p Fz f /\ Rabs (Fx - long_offset p f Fz) <= Rabs (long_peak p f gamma Fz)) /\
  (forall Fy, kappa = 0 -> dget "Fy" out = Some (Some Fy) -> dget "Gyk" out = Some (Some 1) /\ exists f, load_change p Fz f /\ Rabs (Fy - lat_offset p f gamma Fz) <= Rabs (lat_friction p f gamma * Fz)).
Proof.
  intros opt_mode params p inputs Fz kappa alpha vx gamma out GI HI H. split.
  - intros Fx -> HF. destruct (has_fx opt_mode params p inputs Fz kappa 0 vx gamma out Fx GI HI H HF) as (f & G & EG & LC & L). destruct L as (sD & sx & B & F0 & _ & _ & _ & _ & _ & E0 & N & E1 & E2). rewrite Rplus_0_l in E1.
    assert (G = 1) as -> by (apply (Rmult_eq_reg_r (hill (p "RCX1") (p "REX1" + p "REX2" * f) (p "RBX1" * p "LXAL" / sqrt (1 + p "RBX2" * kappa * (p "RBX2" * kappa)) * p "RHX1"))); [rewrite Rmult_1_l; exact E1|exact N]).
    split; [exact EG|]. exists f. split; [exact LC|]. rewrite E2, Rmult_1_l, E0. replace (_ - _) with (long_peak p f gamma Fz * curve (p "PCX1" * p "LCX") (long_curvature p f sx) (B * (kappa + long_shift p f))) by ring. rewrite Rabs_mult.
    rewrite <- (Rmult_1_r (Rabs (long_peak p f gamma Fz))) at 2. apply Rmult_le_compat_l; [apply Rabs_pos|apply curve_le].
  - intros Fy -> HF. destruct (has_fy opt_mode params p inputs Fz 0 alpha vx gamma out Fy GI HI H HF) as (f & K & G & B & _ & EG & LC & L). destruct L as (sD & sx & F0 & _ & _ & _ & _ & _ & E0 & N & E1 & E2). rewrite Rplus_0_l in E1.
    assert (G = 1) as ->. { eapply (Rmult_eq_reg_r); [rewrite Rmult_1_l; exact E1|exact N]. }
    split; [exact EG|]. exists f. split; [exact LC|]. assert (slip_side_force p f 0 alpha gamma Fz = 0) as Z. { unfold slip_side_force. rewrite Rmult_0_r, atan_0, Rmult_0_r, sin_0. unfold Rdiv. ring. }
    rewrite E2, Z, Rplus_0_r, Rmult_1_l, E0. replace (_ - _) with (lat_friction p f gamma * Fz * curve (p "PCY1" * p "LCY") (lat_curvature p f gamma sx) (B * (alpha + lat_shift p f gamma))) by ring. rewrite Rabs_mult.
    rewrite <- (Rmult_1_r (Rabs (lat_friction p f gamma * Fz))) at 2. apply Rmult_le_compat_l; [apply Rabs_pos|apply curve_le].
Qed.
Print Assumptions C55_pure.

(** Friction limits the forces, whatever the slip. *)
Theorem C55_bound : forall opt_mode params p inputs Fz kappa alpha vx gamma out, given params opt_mode p -> mf_inputs inputs Fz kappa alpha vx gamma -> mf_forward opt_mode params inputs = Ok out ->
  (forall Fx, dget "Fx" out = Some (Some Fx) -> exists f G, load_change p Fz f /\ dget "Gxa" out = Some (Some G) /\ Rabs Fx <= Rabs G * (Rabs (long_peak p f gamma Fz) + Rabs (long_offset p f Fz))) /\
  (forall Fy, dget "Fy" out = Some (Some Fy) -> exists f G, load_change p Fz f /\ dget "Gyk" out = Some (Some G) /\
     Rabs Fy <= Rabs G * (Rabs (lat_friction p f gamma * Fz) + Rabs (lat_offset p f gamma Fz)) + Rabs (lat_friction p f gamma * Fz) * Rabs ((p "RVY1" + p "RVY2" * f + p "RVY3" * gamma) * p "LVYKA")).
Proof.
  intros opt_mode params p inputs Fz kappa alpha vx gamma out GI HI H.
  assert (forall D C E x V G, Rabs (G * (D * curve C E x + V)) <= Rabs G * (Rabs D + Rabs V)) as K.
  { intros D C E x V G. rewrite Rabs_mult. apply Rmult_le_compat_l; [apply Rabs_pos|]. apply Rle_trans with (Rabs (D * curve C E x) + Rabs V); [apply Rabs_triang|]. apply Rplus_le_compat_r. rewrite Rabs_mult. rewrite <- (Rmult_1_r (Rabs D)) at 2. apply Rmult_le_compat_l; [apply Rabs_pos|apply curve_le]. }
  split.
  - intros Fx HF. destruct (has_fx opt_mode params p inputs Fz kappa alpha vx gamma out Fx GI HI H HF) as (f & G & EG & LC & L). destruct L as (sD & sx & B & F0 & _ & _ & _ & _ & _ & E0 & N & E1 & E2).
    exists f, G. split; [exact LC|]. split; [exact EG|]. rewrite E2, E0. apply K.
  - intros Fy HF. destruct (has_fy opt_mode params p inputs Fz kappa alpha vx gamma out Fy GI HI H HF) as (f & Ky & G & B & _ & EG & LC & L). destruct L as (sD & sx & F0 & _ & _ & _ & _ & _ & E0 & N & E1 & E2).
    exists f, G. split; [exact LC|]. split; [exact EG|]. rewrite E2, E0. eapply Rle_trans; [apply Rabs_triang|]. apply Rplus_le_compat; [apply K|]. unfold slip_side_force.
    set (D := lat_friction p f gamma * Fz). set (W := p "RVY1" + p "RVY2" * f + p "RVY3" * gamma). set (s := sin _). set (q := 1 + _).
    assert (1 <= q) as Hq. { unfold q. pose proof (Rle_0_sqr (p "RVY4" * alpha)) as Q. unfold Rsqr in Q. lra. }
    assert (1 <= sqrt q) as Hs. { rewrite <- sqrt_1 at 1. apply sqrt_le_1_alt. exact Hq. }
    replace (D * W * p "LVYKA" * s / sqrt q) with (D * (W * p "LVYKA") * (s / sqrt q)) by (field; lra). rewrite !Rabs_mult. rewrite <- (Rmult_1_r (Rabs D * (Rabs W * Rabs (p "LVYKA")))) at 2. apply Rmult_le_compat_l.
    { repeat apply Rmult_le_pos; apply Rabs_pos. }
    unfold Rdiv. rewrite Rabs_mult, (Rabs_right (/ sqrt q)) by (left; apply Rinv_0_lt_compat; lra). pose proof (SIN_bound (p "RVY5" * atan (p "RVY6" * kappa))) as SB. fold s in SB. assert (Rabs s <= 1) as S1 by (apply Rabs_le; lra).
    apply (Rmult_le_reg_r (sqrt q)); [lra|]. rewrite Rmult_assoc, Rinv_l by lra. lra.
Qed.
Print Assumptions C55_bound.

(** ** Slope and peak of a force curve *)
Lemma slope_at : forall C D V q h (E F : R -> R), (forall k, F k = D * curve C (E (nsign (k + h))) (q * (k + h)) + V) -> F (- h) = V /\ derivable_pt_lim F (- h) (D * (C * q)).
Proof.
  intros C D V q h E F HX. split. { rewrite HX. replace (- h + h) with 0 by ring. rewrite Rmult_0_r, curve_zero. ring. }
  assert (derivable_pt_lim (fun x => curve C (E (nsign x)) (q * x)) 0 (C * q)) as DC.
  { set (M := 1 + Rabs (E 1) + Rabs (E (-1)) + Rabs (E 0)). apply (curve_slope C q (fun x => E (nsign x)) M). intro x.
    assert (nsign x = 1 \/ nsign x = -1 \/ nsign x = 0) as [-> | [-> | ->]] by (unfold nsign; destruct (Rlt_dec 0 x), (Rlt_dec x 0); auto);
    unfold M, Rmin; destruct (Rle_dec _ _); try rewrite Rabs_R1; pose proof (Rabs_pos (E 1)); pose proof (Rabs_pos (E (-1))); pose proof (Rabs_pos (E 0)); lra. }
  assert (derivable_pt_lim (fun k => k + h) (- h) 1) as DH. { pose proof (derivable_pt_lim_plus id (fct_cte h) (- h) 1 0 (derivable_pt_lim_id _) (derivable_pt_lim_const _ _)) as D1. rewrite Rplus_0_r in D1. exact D1. }
  assert (derivable_pt_lim (fun k => curve C (E (nsign (k + h))) (q * (k + h))) (- h) (C * q)) as DK.
  { pose proof (derivable_pt_lim_comp (fun k => k + h) (fun x => curve C (E (nsign x)) (q * x)) (- h) 1 (C * q) DH) as D2. rewrite Rmult_1_r in D2. apply D2. replace (- h + h) with 0 by ring. exact DC. }
  pose proof (derivable_pt_lim_plus _ _ (- h) _ _ (derivable_pt_lim_scal _ D (- h) _ DK) (derivable_pt_lim_const V (- h))) as DF.
  rewrite <- (Rplus_0_r (D * (C * q))). intros eps He. destruct (DF eps He) as (d & Hd). exists d. intros k Hk1 Hk2. specialize (Hd k Hk1 Hk2). unfold plus_fct, mult_real_fct, fct_cte in Hd. rewrite !HX. exact Hd.
Qed.
Lemma peak_at : forall C D V q h (E F : R -> R), (forall k, F k = D * curve C (E (nsign (k + h))) (q * (k + h)) + V) -> 1 < C -> q <> 0 ->
  forall side, side = 1 \/ side = -1 -> E side < 1 -> exists k, 0 < side * (k + h) /\ (0 < q -> F k = V + side * D) /\ (q < 0 -> F k = V - side * D).
Proof.
  intros C D V q h E F HX HC Hq side HS HE. destruct (curve_top C _ HC HE) as (y & Hy & T). assert (0 < Rabs q) as Hq' by (now apply Rabs_pos_lt). assert (0 < y / Rabs q) as Hk by (apply Rdiv_lt_0_compat; assumption).
  set (z := y / Rabs q) in *. exists (side * z - h). assert (side * z - h + h = side * z) as -> by ring. split; [destruct HS as [-> | ->]; lra|]. rewrite HX. assert (side * z - h + h = side * z) as -> by ring.
  assert (nsign (side * z) = side) as ->. { unfold nsign. destruct HS as [-> | ->]; [destruct (Rlt_dec 0 (1 * z)), (Rlt_dec (1 * z) 0)|destruct (Rlt_dec 0 (-1 * z)), (Rlt_dec (-1 * z) 0)]; lra. }
  assert (Rabs q * z = y) as EZ by (unfold z; field; lra). split; intro SQ.
  - rewrite Rabs_right in EZ by lra. destruct HS as [-> | ->]; [replace (q * (1 * z)) with y by lra|replace (q * (-1 * z)) with (- y) by lra; rewrite curve_odd]; rewrite T; ring.
  - rewrite Rabs_left in EZ by lra. destruct HS as [-> | ->]; [replace (q * (1 * z)) with (- y) by lra; rewrite curve_odd|replace (q * (-1 * z)) with y by lra]; rewrite T; ring.
Qed.
Lemma slope_pos : forall C D K e s, 1 < C -> 0 <= e -> sign_of D s -> K * D <> 0 -> K / (C * D + e * s) <> 0 /\ (0 < K * D -> 0 < K / (C * D + e * s)) /\ (K * D < 0 -> K / (C * D + e * s) < 0).
Proof.
  assert (forall C D K e s, 1 < C -> 0 <= e -> sign_of D s -> 0 < K * D -> 0 < K / (C * D + e * s)) as P.
  { intros C D K e s HC He (S1 & S2 & S3) HK. destruct (Rtotal_order D 0) as [H|[H|H]].
    - rewrite S2 by exact H. assert (K < 0) by nra. assert (C * D + e * -1 < 0) by nra. replace (K / (C * D + e * -1)) with (- K / - (C * D + e * -1)) by (field; lra). apply Rdiv_lt_0_compat; lra.
    - rewrite H in HK. lra.
    - rewrite S1 by exact H. assert (0 < K) by nra. apply Rdiv_lt_0_compat; nra. }
  intros C D K e s HC He HS HK. assert (K * D < 0 -> K / (C * D + e * s) < 0) as Q. { intro H. assert (0 < - K / (C * D + e * s)) as Q by (apply P; auto; lra). replace (- K / (C * D + e * s)) with (- (K / (C * D + e * s))) in Q by (unfold Rdiv; ring). lra. }
  split; [|split; [intro; now apply P|exact Q]]. destruct (Rlt_dec 0 (K * D)) as [H|H]; [specialize (P C D K e s HC He HS H); lra|]. assert (K * D < 0) as H' by lra. specialize (Q H'). lra.
Qed.
(** [Fx kappa] is the longitudinal force at slip [kappa] and slip angle 0, [Fy alpha] is the lateral force at slip angle [alpha] and slip 0, both at fixed load, speed and camber; K is the stiffness that is returned along with it *)
Definition long_curve (opt_mode : bool) (params : dict R) (Fz vx gamma : R) (Fx : R -> R) (K : R) : Prop :=
  forall kappa, exists inputs out, mf_inputs inputs Fz kappa 0 vx gamma /\ mf_forward opt_mode params inputs = Ok out /\ dget "Fx" out = Some (Some (Fx kappa)) /\ dget "Kxk" out = Some (Some K).
Definition lat_curve (opt_mode : bool) (params : dict R) (Fz vx gamma : R) (Fy : R -> R) (K : R) : Prop :=
  forall alpha, exists inputs out, mf_inputs inputs Fz 0 alpha vx gamma /\ mf_forward opt_mode params inputs = Ok out /\ dget "Fy" out = Some (Some (Fy alpha)) /\ dget "Kya" out = Some (Some K).
Lemma long_form : forall opt_mode params p Fz vx gamma f (Fx : R -> R) K s, given params opt_mode p -> load_change p Fz f -> sign_of (long_peak p f gamma Fz) s -> long_curve opt_mode params Fz vx gamma Fx K ->
  let D := long_peak p f gamma Fz in let C := p "PCX1" * p "LCX" in let h := long_shift p f in let N := C * D + p "epsilonx" * s in
  N <> 0 /\ K = long_stiffness p f Fz /\ forall kappa, Fx kappa = D * curve C (long_curvature p f (nsign (kappa + h))) (K / N * (kappa + h)) + long_offset p f Fz.
Proof.
  intros opt_mode params p Fz vx gamma f Fx K s GI LC HS HF D C h N. set (V := long_offset p f Fz).
  assert (forall f', load_change p Fz f' -> f' = f) as UF. { intros f' (_ & E'). destruct LC as [HN E]. rewrite E in E'. apply Rmult_eq_reg_l in E'; [lra|exact HN]. }
  assert (forall kappa, N <> 0 /\ K = long_stiffness p f Fz /\ Fx kappa = D * curve C (long_curvature p f (nsign (kappa + h))) (K / N * (kappa + h)) + V) as A; [|split; [apply (A 0)|split; [apply (A 0)|intro kappa; apply (A kappa)]]].
  intro kappa. destruct (HF kappa) as (inputs & out & HI & H & H1 & H2). destruct (C55_pure opt_mode params p inputs Fz kappa 0 vx gamma out GI HI H) as (P1 & _). destruct (P1 (Fx kappa) eq_refl H1) as (G1 & _).
  destruct (C55_forces opt_mode params p inputs Fz kappa 0 vx gamma out GI HI H) as (L & _). destruct (proj1 (L (Fx kappa) K 1)) as (f' & L1 & L2); [auto|]. rewrite (UF f' L1) in L2. destruct L2 as (sD & sx & B & F0 & SD & SX & EK & NZ & EB & E0 & _ & _ & E2).
  assert (sD = s) as -> by exact (sign_eq _ _ _ SD HS). fold D C in NZ, EB, E0. fold h V in E0. fold N in NZ, EB. split; [exact NZ|]. split; [exact EK|]. rewrite <- (sign_eq _ _ _ SX (nsign_of (kappa + h))). rewrite E2, Rmult_1_l, E0. do 2 f_equal. f_equal. rewrite <- EB. field. exact NZ.
Qed.
Lemma lat_form : forall opt_mode params p Fz vx gamma f (Fy : R -> R) K s, given params opt_mode p -> load_change p Fz f -> sign_of (lat_friction p f gamma * Fz) s -> lat_curve opt_mode params Fz vx gamma Fy K ->
  let D := lat_friction p f gamma * Fz in let C := p "PCY1" * p "LCY" in let h := lat_shift p f gamma in let N := C * D + p "epsilony" * s in
  N <> 0 /\ lat_stiffness p gamma Fz K /\ forall alpha, Fy alpha = D * curve C (lat_curvature p f gamma (nsign (alpha + h))) (K / N * (alpha + h)) + lat_offset p f gamma Fz.
Proof.
  intros opt_mode params p Fz vx gamma f Fy K s GI LC HS HF D C h N. set (V := lat_offset p f gamma Fz).
  assert (forall f', load_change p Fz f' -> f' = f) as UF. { intros f' (_ & E'). destruct LC as [HN E]. rewrite E in E'. apply Rmult_eq_reg_l in E'; [lra|exact HN]. }
  assert (forall alpha, N <> 0 /\ lat_stiffness p gamma Fz K /\ Fy alpha = D * curve C (lat_curvature p f gamma (nsign (alpha + h))) (K / N * (alpha + h)) + V) as A; [|split; [apply (A 0)|split; [apply (A 0)|intro alpha; apply (A alpha)]]].
  intro alpha. destruct (HF alpha) as (inputs & out & HI & H & H1 & H2). destruct (C55_pure opt_mode params p inputs Fz 0 alpha vx gamma out GI HI H) as (_ & P1). destruct (P1 (Fy alpha) eq_refl H1) as (G1 & _).
  destruct (C55_forces opt_mode params p inputs Fz 0 alpha vx gamma out GI HI H) as (_ & L & _). destruct (proj1 (L (Fy alpha) K 1)) as (f' & B & L1 & L2); [auto|]. rewrite (UF f' L1) in L2. destruct L2 as (sD & sx & F0 & SD & SX & EK & NZ & EB & E0 & _ & _ & E2).
  assert (slip_side_force p f 0 alpha gamma Fz = 0) as Z. { unfold slip_side_force. rewrite Rmult_0_r, atan_0, Rmult_0_r, sin_0. unfold Rdiv. ring. }
  assert (sD = s) as -> by exact (sign_eq _ _ _ SD HS). fold D C in NZ, EB, E0. fold h V in E0. fold N in NZ, EB. split; [exact NZ|]. split; [exact EK|]. rewrite <- (sign_eq _ _ _ SX (nsign_of (alpha + h))). rewrite E2, Z, Rplus_0_r, Rmult_1_l, E0. do 2 f_equal. f_equal. rewrite <- EB. field. exact NZ.
Qed.

(** The outputs Kxk and Kya are the slopes of the forces where the curves cross their offsets, up to the factor C D / (C D + epsilon sign D) that keeps the code from dividing by 0. *)
Theorem C55_stiffness : forall opt_mode params p Fz vx gamma f, given params opt_mode p -> load_change p Fz f ->
  (forall Fx K s, long_curve opt_mode params Fz vx gamma Fx K -> sign_of (long_peak p f gamma Fz) s -> let CD := p "PCX1" * p "LCX" * long_peak p f gamma Fz in
     Fx (- long_shift p f) = long_offset p f Fz /\ derivable_pt_lim Fx (- long_shift p f) (K * (CD / (CD + p "epsilonx" * s)))) /\
  (forall Fy K s, lat_curve opt_mode params Fz vx gamma Fy K -> sign_of (lat_friction p f gamma * Fz) s -> let CD := p "PCY1" * p "LCY" * (lat_friction p f gamma * Fz) in
     Fy (- lat_shift p f gamma) = lat_offset p f gamma Fz /\ derivable_pt_lim Fy (- lat_shift p f gamma) (K * (CD / (CD + p "epsilony" * s)))).
Proof.
  intros opt_mode params p Fz vx gamma f GI LC. split.
  - intros Fx K s HF HS CD. destruct (long_form opt_mode params p Fz vx gamma f Fx K s GI LC HS HF) as (HN & _ & HX). destruct (slope_at _ _ _ _ _ (long_curvature p f) Fx HX) as [V0 DV]. split; [exact V0|].
    replace (K * (CD / (CD + p "epsilonx" * s))) with (long_peak p f gamma Fz * (p "PCX1" * p "LCX" * (K / (p "PCX1" * p "LCX" * long_peak p f gamma Fz + p "epsilonx" * s)))); [exact DV|]. unfold CD. field. exact HN.
  - intros Fy K s HF HS CD. destruct (lat_form opt_mode params p Fz vx gamma f Fy K s GI LC HS HF) as (HN & _ & HX). destruct (slope_at _ _ _ _ _ (lat_curvature p f gamma) Fy HX) as [V0 DV]. split; [exact V0|].
    replace (K * (CD / (CD + p "epsilony" * s))) with (lat_friction p f gamma * Fz * (p "PCY1" * p "LCY" * (K / (p "PCY1" * p "LCY" * (lat_friction p f gamma * Fz) + p "epsilony" * s)))); [exact DV|]. unfold CD. field. exact HN.
Qed.
Print Assumptions C55_stiffness.

(** For shape factors above 1 and curvatures below 1 the limits of [C55_pure] are reached: D and -D are the extreme forces, one on either side of the offset; which one depends on the sign of the stiffness. *)
Theorem C55_peak : forall opt_mode params p Fz vx gamma f, given params opt_mode p -> load_change p Fz f ->
  (forall Fx K, long_curve opt_mode params Fz vx gamma Fx K -> let D := long_peak p f gamma Fz in let V := long_offset p f Fz in 1 < p "PCX1" * p "LCX" -> 0 <= p "epsilonx" -> K * D <> 0 ->
     (forall kappa, Rabs (Fx kappa - V) <= Rabs D) /\
     forall side, side = 1 \/ side = -1 -> long_curvature p f side < 1 -> exists kappa, 0 < side * (kappa + long_shift p f) /\ (0 < K * D -> Fx kappa = V + side * D) /\ (K * D < 0 -> Fx kappa = V - side * D)) /\
  (forall Fy K, lat_curve opt_mode params Fz vx gamma Fy K -> let D := lat_friction p f gamma * Fz in let V := lat_offset p f gamma Fz in 1 < p "PCY1" * p "LCY" -> 0 <= p "epsilony" -> K * D <> 0 ->
     (forall alpha, Rabs (Fy alpha - V) <= Rabs D) /\
     forall side, side = 1 \/ side = -1 -> lat_curvature p f gamma side < 1 -> exists alpha, 0 < side * (alpha + lat_shift p f gamma) /\ (0 < K * D -> Fy alpha = V + side * D) /\ (K * D < 0 -> Fy alpha = V - side * D)).
Proof.
  assert (forall D C E x V, Rabs (D * curve C E x + V - V) <= Rabs D) as KB.
  { intros D C E x V. replace (D * curve C E x + V - V) with (D * curve C E x) by ring. rewrite Rabs_mult. rewrite <- (Rmult_1_r (Rabs D)) at 2. apply Rmult_le_compat_l; [apply Rabs_pos|apply curve_le]. }
  intros opt_mode params p Fz vx gamma f GI LC. split.
  - intros Fx K HF D V HC He HK. pose proof (nsign_of D) as HS. destruct (long_form opt_mode params p Fz vx gamma f Fx K _ GI LC HS HF) as (HN & _ & HX). split; [intro kappa; rewrite HX; apply KB|].
    intros side Hs HE. destruct (slope_pos _ D K (p "epsilonx") (nsign D) HC He HS HK) as (Q0 & Q1 & Q2). destruct (peak_at _ _ _ _ _ (long_curvature p f) Fx HX HC Q0 side Hs HE) as (k & K0 & K1 & K2). exists k. auto.
  - intros Fy K HF D V HC He HK. pose proof (nsign_of D) as HS. destruct (lat_form opt_mode params p Fz vx gamma f Fy K _ GI LC HS HF) as (HN & _ & HX). split; [intro alpha; rewrite HX; apply KB|].
    intros side Hs HE. destruct (slope_pos _ D K (p "epsilony") (nsign D) HC He HS HK) as (Q0 & Q1 & Q2). destruct (peak_at _ _ _ _ _ (lat_curvature p f gamma) Fy HX HC Q0 side Hs HE) as (k & K0 & K1 & K2). exists k. auto.
Qed.
Print Assumptions C55_peak.
