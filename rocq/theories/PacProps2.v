(** C55: the same tire on the other side of the car. *)
From Coq Require Import Ratan Rpower.
From Verif Require Import Base RBase UtilsModel PacModel PacSpec PacProofs PacProps.

Lemma nsign_opp : forall x, nsign (- x) = - nsign x.
Proof. intro x. unfold nsign. destruct (Rlt_dec 0 (- x)), (Rlt_dec 0 x), (Rlt_dec (- x) 0), (Rlt_dec x 0); lra. Qed.
Lemma odiv_opp : forall a b, odiv (- a) b = option_map Ropp (odiv a b).
Proof. intros a b. unfold odiv. destruct (Req_EM_T b 0); [reflexivity|]. cbn [option_map]. f_equal. field. exact n. Qed.
Lemma bend_opp : forall E x, - x - E * (- x - atan (- x)) = - (x - E * (x - atan x)).
Proof. intros E x. rewrite atan_opp. ring. Qed.
Lemma sq_opp : forall x, (- x) ^ 2 = x ^ 2.
Proof. intro x. ring. Qed.

Section Mirror.
Variable p : string -> R.
Definition mir (n : string) : R := if existsb (String.eqb n) sided then - p n else p n.
Ltac names := repeat match goal with |- context [mir ?n] => let v := eval vm_compute in (existsb (String.eqb n) sided) in match v with true => change (mir n) with (- p n) | false => change (mir n) with (p n) end end.
Definition mirb (b : basic) : basic := {| alpha_star := - alpha_star b; gamma_star := - gamma_star b; LMUX_star := LMUX_star b; LMUY_star := LMUY_star b; Fz0_prime := Fz0_prime b; alpha_prime := alpha_prime b;
  LMUX_prime := LMUX_prime b; LMUY_prime := LMUY_prime b; dfz := dfz b |}.
Definition mirl (l : lat) : lat := {| Fy0 := option_map Ropp (Fy0 l); muy := muy l; Kya := Kya l; SHy := - SHy l; SVy := - SVy l; By := By l; Cy := Cy l |}.

Lemma mir_basic : forall alpha vx gamma Fz, calculate_basic mir (- alpha) vx (- gamma) Fz = option_map mirb (calculate_basic p alpha vx gamma Fz).
Proof.
  intros alpha vx gamma Fz. unfold calculate_basic. names. rewrite tan_neg. replace ((- tan alpha * vx) ^ 2) with ((tan alpha * vx) ^ 2) by ring.
  destruct (odiv (Fz - p "LFZO" * p "FNOMIN") (p "LFZO" * p "FNOMIN")) as [f|]; [cbn [obind]|reflexivity].
  destruct (odiv (1 * p "LMUX") (1 + (1 - 1) * p "LMUX")) as [m|]; [cbn [obind]|reflexivity]. destruct (odiv (1 * p "LMUY") (1 + (1 - 1) * p "LMUY")) as [m'|]; [cbn [obind]|reflexivity]. reflexivity.
Qed.
Lemma mir_Fx0 : forall b kappa gamma Fz, calculate_Fx0 mir (mirb b) kappa (- gamma) Fz = calculate_Fx0 p b kappa gamma Fz.
Proof. intros b kappa gamma Fz. unfold calculate_Fx0, mirb. cbn [dfz LMUX_star LMUX_prime]. names. rewrite !sq_opp. reflexivity. Qed.
Lemma mir_Fx : forall b kappa Fx0, calculate_Fx mir (mirb b) kappa Fx0 = calculate_Fx p b kappa Fx0.
Proof.
  intros b kappa Fx0. unfold calculate_Fx, mirb. cbn [dfz alpha_star]. names. set (E := Rmin _ _). set (B := p "RBX1" * _ * _).
  replace (B * - p "RHX1") with (- (B * p "RHX1")) by ring. replace (B * (- alpha_star b + - p "RHX1")) with (- (B * (alpha_star b + p "RHX1"))) by ring. rewrite !bend_opp, !atan_opp, <- !Ropp_mult_distr_r, !cos_neg. reflexivity.
Qed.
Lemma mir_Fy0 : forall b Fz, calculate_Fy0 mir (mirb b) Fz = mirl (calculate_Fy0 p b Fz).
Proof.
  intros b Fz. unfold calculate_Fy0, mirb, mirl. cbn [dfz alpha_star gamma_star LMUY_star LMUY_prime Fz0_prime Fy0 muy Kya SHy SVy By Cy]. names. rewrite Rabs_Ropp, sq_opp.
  set (SH := (p "PHY1" + p "PHY2" * dfz b) * p "LHY" + p "PHY3" * gamma_star b).
  replace ((- p "PHY1" + - p "PHY2" * dfz b) * p "LHY" + p "PHY3" * - gamma_star b) with (- SH) by (unfold SH; ring).
  set (SV := Fz * (p "PVY1" + p "PVY2" * dfz b) * p "LVY" * LMUY_prime b * 1 + Fz * (p "PVY3" + p "PVY4" * dfz b) * gamma_star b * LMUY_prime b * 1).
  replace (Fz * (- p "PVY1" + - p "PVY2" * dfz b) * p "LVY" * LMUY_prime b * 1 + Fz * (p "PVY3" + p "PVY4" * dfz b) * - gamma_star b * LMUY_prime b * 1) with (- SV) by (unfold SV; ring).
  replace (- alpha_star b + - SH) with (- (alpha_star b + SH)) by ring. rewrite nsign_opp.
  replace ((- p "PEY3" + p "PEY4" * - gamma_star b) * - nsign (alpha_star b + SH)) with ((p "PEY3" + p "PEY4" * gamma_star b) * nsign (alpha_star b + SH)) by ring.
  set (K := let? q := odiv Fz (Fz0_prime b) in _). set (muy := (p "PDY1" + p "PDY2" * dfz b) * (1 - p "PDY3" * gamma_star b ^ 2) * LMUY_star b). set (B := let? K := K in _).
  f_equal. destruct B as [B|]; [|reflexivity]. cbn [obind option_map]. f_equal. set (E := Rmin _ _). replace (B * - (alpha_star b + SH)) with (- (B * (alpha_star b + SH))) by ring.
  rewrite bend_opp, atan_opp, <- Ropp_mult_distr_r, sin_neg. ring.
Qed.
Lemma mir_Fy : forall b Fz kappa F0 mu, calculate_Fy mir (mirb b) Fz kappa (option_map Ropp F0) mu = let '(Fy, G, SV) := calculate_Fy p b Fz kappa F0 mu in (option_map Ropp Fy, G, - SV).
Proof.
  intros b Fz kappa F0 mu. unfold calculate_Fy, mirb. cbn [dfz alpha_star gamma_star]. names. replace (p "RVY4" * - alpha_star b) with (- (p "RVY4" * alpha_star b)) by ring.
  replace (p "RBY2" * (- alpha_star b - - p "RBY3")) with (- (p "RBY2" * (alpha_star b - p "RBY3"))) by ring. rewrite !atan_opp, !cos_neg. set (G := odiv _ _). set (c := cos (atan (p "RVY4" * alpha_star b))). set (s := sin _).
  assert (mu * Fz * (- p "RVY1" + - p "RVY2" * dfz b + p "RVY3" * - gamma_star b) * c * 1 * s * p "LVYKA" = - (mu * Fz * (p "RVY1" + p "RVY2" * dfz b + p "RVY3" * gamma_star b) * c * 1 * s * p "LVYKA")) as -> by ring.
  f_equal. f_equal. destruct G as [g|]; [cbn [obind]|reflexivity]. destruct F0 as [f0|]; [cbn [obind option_map]|reflexivity]. f_equal. ring.
Qed.
Lemma mir_Mx : forall gamma Fz Fy, calculate_Mx mir (- gamma) Fz (option_map Ropp Fy) = option_map Ropp (calculate_Mx p gamma Fz Fy).
Proof.
  intros gamma Fz Fy. unfold calculate_Mx. names. destruct Fy as [Fy|]; [cbn [obind option_map]|reflexivity]. rewrite odiv_opp. destruct (odiv Fy (p "FNOMIN")) as [q|]; [cbn [obind option_map]|reflexivity]. f_equal. ring.
Qed.
Lemma mir_My : forall Fz vx Fx, calculate_My mir Fz vx Fx = calculate_My p Fz vx Fx.
Proof. intros. unfold calculate_My. names. reflexivity. Qed.
Lemma mir_Mz : forall b kappa alpha gamma Fz vx Fx K Fy l SV, calculate_Mz mir (mirb b) kappa (- alpha) (- gamma) Fz vx Fx K (option_map Ropp Fy) (mirl l) (- SV) = option_map Ropp (calculate_Mz p b kappa alpha gamma Fz vx Fx K Fy l SV).
Proof.
  intros b kappa alpha gamma Fz vx Fx K Fy l SV. unfold calculate_Mz, mirb, mirl. cbn [dfz LMUY_star Fz0_prime alpha_prime Kya SHy SVy By Cy]. names. destruct (Kya l) as [Ky|]; [cbn [obind option_map]|reflexivity].
  rewrite odiv_opp. destruct (odiv (SVy l) (Ky + p "epsilonk" * nsign Ky)) as [q|]; [cbn [obind option_map]|reflexivity]. destruct (odiv (p "UNLOADED_RADIUS") (Fz0_prime b)) as [q1|]; [cbn [obind option_map]|reflexivity]. rewrite Rabs_Ropp.
  set (SHt := p "QHZ1" + p "QHZ2" * dfz b + (p "QHZ3" + p "QHZ4" * dfz b) * gamma). replace (- p "QHZ1" + - p "QHZ2" * dfz b + (p "QHZ3" + p "QHZ4" * dfz b) * - gamma) with (- SHt) by (unfold SHt; ring).
  replace (1 + - p "QBZ4" * - gamma + p "QBZ5" * Rabs gamma) with (1 + p "QBZ4" * gamma + p "QBZ5" * Rabs gamma) by ring.
  match goal with |- context [odiv ?x (LMUY_star b)] => destruct (odiv x (LMUY_star b)) as [Bt|]; [cbn [obind option_map]|reflexivity] end.
  destruct (odiv (p "QBZ9" * p "LKY") (LMUY_star b)) as [q2|]; [cbn [obind option_map]|reflexivity]. destruct (By l) as [B|]; [cbn [obind option_map]|reflexivity].
  destruct (odiv K (Ky + p "epsilonk" * nsign Ky)) as [KK|]; [cbn [obind option_map]|reflexivity]. destruct Fy as [Fy|]; [cbn [obind option_map]|reflexivity]. rewrite odiv_opp. destruct (odiv Fy (p "FNOMIN")) as [q3|]; [cbn [obind option_map]|reflexivity].
  destruct (alpha_prime b) as [ap|]; [cbn [obind option_map]|reflexivity]. destruct Fx as [Fx|]; [cbn [obind option_map]|reflexivity]. f_equal.
  replace (- alpha + - SHt) with (- (alpha + SHt)) by ring. replace (- alpha + (- SHy l + - q)) with (- (alpha + (SHy l + q))) by ring. rewrite !tan_neg, !sq_opp, !nsign_opp, cos_neg.
  replace (Bt * p "QCZ1" * - (alpha + SHt)) with (- (Bt * p "QCZ1" * (alpha + SHt))) by ring. rewrite atan_opp.
  set (A := atan (Bt * p "QCZ1" * (alpha + SHt))). set (st := atan (sqrt (tan (alpha + SHt) ^ 2 + KK ^ 2 * kappa ^ 2)) * nsign (alpha + SHt)). set (sr := atan (sqrt (tan (alpha + (SHy l + q)) ^ 2 + KK ^ 2 * kappa ^ 2)) * nsign (alpha + (SHy l + q))).
  rewrite <- !Ropp_mult_distr_r. fold st sr. replace ((1 + - ((- p "QEZ4" + - (p "QEZ5" * gamma)) * (2 / PI) * A))) with (1 + (p "QEZ4" + p "QEZ5" * gamma) * (2 / PI) * A) by ring.
  set (E := (p "QEZ1" + p "QEZ2" * dfz b + p "QEZ3" * dfz b ^ 2) * (1 + (p "QEZ4" + p "QEZ5" * gamma) * (2 / PI) * A)). rewrite bend_opp, !atan_opp, <- !Ropp_mult_distr_r, !cos_neg.
  set (c1 := cos (1 * _)). set (c2 := cos (p "QCZ1" * _)). set (c3 := cos ap). ring.
Qed.

Definition mirf (r : forces) : forces := {| r_Fx := r_Fx r; r_Fy := option_map Ropp (r_Fy r); r_Mx := option_map Ropp (r_Mx r); r_My := r_My r; r_Mz := option_map Ropp (r_Mz r); r_Kxk := r_Kxk r; r_Gxa := r_Gxa r; r_Kya := r_Kya r; r_Gyk := r_Gyk r |}.
Lemma mir_do : forall opt_mode kappa alpha gamma vx Fz, do_force_and_moments mir opt_mode kappa (- alpha) (- gamma) vx Fz = mirf (do_force_and_moments p opt_mode kappa alpha gamma vx Fz).
Proof.
  intros opt_mode kappa alpha gamma vx Fz. assert (Some 0 = option_map Ropp (Some 0)) as Z by (cbn [option_map]; f_equal; lra). unfold do_force_and_moments. rewrite mir_basic. destruct (calculate_basic p alpha vx gamma Fz) as [b|]; cbn [option_map].
  2:{ unfold mirf. cbn [r_Fx r_Fy r_Mx r_My r_Mz r_Kxk r_Gxa r_Kya r_Gyk]. destruct opt_mode; [now rewrite <- Z|reflexivity]. }
  rewrite mir_Fx0. destruct (calculate_Fx0 p b kappa gamma Fz) as [[Fx0 mux] K]. rewrite mir_Fx. destruct (calculate_Fx p b kappa Fx0) as [Fx G]. rewrite mir_Fy0. set (l := calculate_Fy0 p b Fz). unfold mirl at 1 2. cbn [Fy0 muy]. rewrite mir_Fy.
  destruct (calculate_Fy p b Fz kappa (Fy0 l) (muy l)) as [[Fy G'] SV]. rewrite mir_Mx, mir_My, mir_Mz. unfold mirf. cbn [r_Fx r_Fy r_Mx r_My r_Mz r_Kxk r_Gxa r_Kya r_Gyk]. unfold mirl. cbn [Kya]. destruct opt_mode; [now rewrite <- Z|reflexivity].
Qed.
End Mirror.

(** The tire on the other side of the car, at the mirrored slip and camber angle, has the same longitudinal force, rolling moment, stiffnesses and weights, and the opposite lateral force, overturning
    moment and aligning torque; each output is undefined for both tires or for none. *)
Theorem C55_mirror : forall opt_mode params other inputs inputs' Fz kappa alpha vx gamma out out', other_tire params other -> mf_inputs inputs Fz kappa alpha vx gamma -> mf_inputs inputs' Fz kappa (- alpha) vx (- gamma) ->
  mf_forward opt_mode params inputs = Ok out -> mf_forward opt_mode other inputs' = Ok out' ->
  (forall n, In n ["Fx"; "My"; "Kxk"; "Gxa"; "Kya"; "Gyk"; "GSum"] -> dget n out' = dget n out) /\
  forall n, In n ["Fy"; "Mx"; "Mz"] -> (dget n out = Some None /\ dget n out' = Some None) \/ exists v, dget n out = Some (Some v) /\ dget n out' = Some (Some (- v)).
Proof.
  intros opt_mode params other inputs inputs' Fz kappa alpha vx gamma out out' HO HI HI' H H'.
  assert (forall n, In n (force_names ++ if opt_mode then [] else moment_names) -> dget n params <> None) as HP.
  { intros n Hn E. rewrite (proj1 (C55_missing opt_mode params inputs)) in H; [discriminate|]. right. now exists n. }
  assert (given params opt_mode (prm params)) as G1. { intros n Hn. specialize (HP n Hn). unfold prm. destruct (dget n params); congruence. }
  assert (given other opt_mode (mir (prm params))) as G2. { intros n Hn. specialize (HP n Hn). rewrite HO. unfold prm, mir. destruct (dget n params); congruence. }
  rewrite (given_forward opt_mode params _ inputs Fz kappa alpha vx gamma G1 HI) in H. rewrite (given_forward opt_mode other _ inputs' Fz kappa (- alpha) vx (- gamma) G2 HI') in H'. rewrite mir_do in H'. cbv zeta in H, H'.
  set (r := do_force_and_moments (prm params) opt_mode kappa alpha gamma vx Fz) in *. assert (forall A (x y : A), Ok x = Ok y -> x = y) as OI by (intros A x y E; congruence). apply OI in H. apply OI in H'. clear OI. subst out out'.
  unfold mirf. cbn [r_Fx r_Fy r_Mx r_My r_Mz r_Kxk r_Gxa r_Kya r_Gyk]. split; intros n Hn; cbn [In] in Hn.
  - repeat (destruct Hn as [<-|Hn]; [reflexivity|]). contradiction.
  - destruct Hn as [<-|[<-|[<-|[]]]]; cbn [dget String.eqb Ascii.eqb Bool.eqb]; [destruct (r_Fy r) as [v|]|destruct (r_Mx r) as [v|]|destruct (r_Mz r) as [v|]]; (right; exists v; split; reflexivity) || (left; split; reflexivity).
Qed.
Print Assumptions C55_mirror.
