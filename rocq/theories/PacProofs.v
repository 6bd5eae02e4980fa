(** Lemmas for C55: the model of MF5.2 computes the textbook equations. *)
From Coq Require Import Ratan Rpower.
From Verif Require Import Base RBase UtilsModel PacModel PacSpec.

Lemma nsign_of : forall x, sign_of x (nsign x).
Proof. intro x. unfold nsign. destruct (Rlt_dec 0 x); [repeat split; lra|]. destruct (Rlt_dec x 0); repeat split; lra. Qed.
Lemma sign_unique : forall x s, sign_of x s -> s = nsign x.
Proof. intros x s (A & B & C). destruct (nsign_of x) as (D & E & F). destruct (Rtotal_order x 0) as [L|[L|L]]; [rewrite B, E|rewrite C, F|rewrite A, D]; auto. Qed.
Lemma odiv_iff : forall a b c, odiv a b = Some c <-> b <> 0 /\ c * b = a.
Proof.
  intros a b c. unfold odiv. destruct (Req_EM_T b 0) as [E|E]; [split; [discriminate|intros [H _]; contradiction]|]. split.
  - intro H. injection H as <-. split; [exact E|field; exact E].
  - intros [_ <-]. f_equal. field. exact E.
Qed.
Lemma odiv_some : forall a b, b <> 0 -> odiv a b = Some (a / b).
Proof. intros a b H. unfold odiv. destruct (Req_EM_T b 0); [contradiction|reflexivity]. Qed.
Lemma odiv_none : forall a, odiv a 0 = None.
Proof. intros a. unfold odiv. destruct (Req_EM_T 0 0); [reflexivity|contradiction]. Qed.
Lemma obind_some : forall A B (x : option A) (f : A -> option B) y, obind x f = Some y <-> exists a, x = Some a /\ f a = Some y.
Proof. intros A B [a|] f y; cbn; split; [eauto|intros (b & E & H); now injection E as <-|discriminate|intros (b & E & _); discriminate]. Qed.
Lemma cos_at : forall x, cos (atan x) = / sqrt (1 + x * x).
Proof. intro x. rewrite cos_atan. unfold Rsqr, Rdiv. ring. Qed.
Lemma root_pos : forall x, 0 < sqrt (1 + x * x).
Proof. intro x. apply sqrt_lt_R0. pose proof (Rle_0_sqr x). unfold Rsqr in *. lra. Qed.
Lemma sin_2at : forall r, sin (2 * atan r) * (1 + r * r) = 2 * r.
Proof.
  intro r. rewrite sin_2a, sin_atan, cos_atan. unfold Rsqr. pose proof (root_pos r) as Q. pose proof (sqrt_sqrt (1 + r * r)) as SS. pose proof (Rle_0_sqr r) as R2. unfold Rsqr in R2. specialize (SS ltac:(lra)).
  set (w := sqrt (1 + r * r)) in *. replace (1 + r * r) with (w * w). field. lra.
Qed.
Lemma bend_is : forall E x, atan (x - Rmin E 1 * (x - atan x)) = bend E x.
Proof. intros. unfold bend. now rewrite Rmin_comm. Qed.

Section Forces.
Variable p : string -> R.
(** what [_calculate_basic] returns for a relative change [f] of the load *)
Definition the_basic (f alpha vx gamma : R) : basic :=
  {| alpha_star := alpha; gamma_star := gamma; LMUX_star := p "LMUX"; LMUY_star := p "LMUY"; Fz0_prime := p "LFZO" * p "FNOMIN";
     alpha_prime := let? c := odiv vx (sqrt (vx ^ 2 + (tan alpha * vx) ^ 2) + p "epsilonv") in Some (acos c); LMUX_prime := p "LMUX"; LMUY_prime := p "LMUY"; dfz := f |}.
Lemma basic_ok : forall alpha vx gamma Fz b, calculate_basic p alpha vx gamma Fz = Some b <-> exists f, load_change p Fz f /\ b = the_basic f alpha vx gamma.
Proof.
  intros alpha vx gamma Fz b. unfold calculate_basic, load_change. set (N := p "LFZO" * p "FNOMIN").
  assert (forall L, odiv (1 * L) (1 + (1 - 1) * L) = Some L) as EL by (intro L; apply odiv_iff; split; [replace (1 + (1 - 1) * L) with 1 by ring; lra|ring]). rewrite !EL. cbn [obind].
  rewrite obind_some. unfold the_basic. fold N. split.
  - intros (f & Hf & E). apply odiv_iff in Hf. destruct Hf as [H1 H2]. exists f. split; [split; [exact H1|]|now injection E as <-]. replace (N * (1 + f)) with (N + f * N) by ring. rewrite H2. ring.
  - intros (f & (H1 & H2) & ->). exists f. split; [|reflexivity]. apply odiv_iff. split; [exact H1|]. rewrite H2. ring.
Qed.
Lemma basic_none : forall alpha vx gamma Fz, calculate_basic p alpha vx gamma Fz = None <-> p "LFZO" * p "FNOMIN" = 0.
Proof.
  intros alpha vx gamma Fz. unfold calculate_basic. set (N := p "LFZO" * p "FNOMIN").
  assert (forall L, odiv (1 * L) (1 + (1 - 1) * L) = Some L) as EL by (intro L; apply odiv_iff; split; [replace (1 + (1 - 1) * L) with 1 by ring; lra|ring]). rewrite !EL. cbn [obind].
  unfold odiv at 1. destruct (Req_EM_T N 0); cbn [obind]; split; intros; auto; [discriminate|contradiction].
Qed.

Lemma long_ok : forall f alpha vx gamma kappa Fz Fx K G, let b := the_basic f alpha vx gamma in let r := calculate_Fx0 p b kappa gamma Fz in
  (fst (calculate_Fx p b kappa (fst (fst r))) = Some Fx /\ snd (calculate_Fx p b kappa (fst (fst r))) = Some G /\ snd r = K) <-> longitudinal p f kappa alpha gamma Fz Fx K G.
Proof.
  intros f alpha vx gamma kappa Fz Fx K G b r. unfold longitudinal, r, calculate_Fx0, calculate_Fx, b, the_basic. cbn [fst snd dfz alpha_star LMUX_star LMUX_prime]. rewrite !bend_is. cbv zeta.
  replace (p "RBX1" * cos (atan (p "RBX2" * kappa)) * p "LXAL") with (p "RBX1" * p "LXAL" / sqrt (1 + p "RBX2" * kappa * (p "RBX2" * kappa))) by (rewrite cos_at; unfold Rdiv; ring).
  replace ((p "PDX1" + p "PDX2" * f) * (1 - p "PDX3" * gamma ^ 2) * p "LMUX" * Fz * 1) with (long_peak p f gamma Fz) by (unfold long_peak; ring).
  replace (Fz * (p "PVX1" + p "PVX2" * f) * p "LVX" * p "LMUX" * 1) with (long_offset p f Fz) by (unfold long_offset; ring).
  fold (long_shift p f). fold (long_stiffness p f Fz). set (D := long_peak p f gamma Fz). set (C := p "PCX1" * p "LCX"). set (x := kappa + long_shift p f). set (B' := p "RBX1" * p "LXAL" / _). set (E' := p "REX1" + p "REX2" * f). set (den := C * D + p "epsilonx" * nsign D).
  replace ((p "PEX1" + p "PEX2" * f + p "PEX3" * f ^ 2) * (1 - p "PEX4" * nsign x) * p "LEX") with (long_curvature p f (nsign x)) by (unfold long_curvature; ring).
  fold (hill (p "RCX1") E' (B' * p "RHX1")). fold (hill (p "RCX1") E' (B' * (alpha + p "RHX1"))). set (h0 := hill _ _ (B' * p "RHX1")). set (h1 := hill _ _ _).
  split.
  - intros (H1 & H2 & H3). rewrite H2 in H1. cbn [obind] in H1. apply odiv_iff in H2. apply obind_some in H1. destruct H1 as (F0 & H1 & H4). apply obind_some in H1. destruct H1 as (B & H1 & H5). rewrite bend_is in H5. apply odiv_iff in H1. injection H4 as <-. injection H5 as <-.
    exists (nsign D), (nsign x), B, (D * curve C (long_curvature p f (nsign x)) (B * x) + long_offset p f Fz). split; [apply nsign_of|]. split; [apply nsign_of|]. split; [now rewrite <- H3|]. rewrite <- H3. fold den. unfold curve. repeat split; try reflexivity; try apply H1; apply H2.
  - intros (sD & sx & B & F0 & S1 & S2 & H1 & H2 & H3 & H4 & H5 & H6 & H7). apply sign_unique in S1, S2. subst sD sx. fold den in H2, H3.
    assert (odiv h1 h0 = Some G) as -> by (apply odiv_iff; auto). rewrite <- H1. assert (odiv K den = Some B) as -> by (apply odiv_iff; auto). cbn [obind]. rewrite bend_is, H7, H4. auto.
Qed.

Lemma lat_ok : forall f alpha vx gamma kappa Fz Fy K G B, p "LFZO" * p "FNOMIN" <> 0 -> let b := the_basic f alpha vx gamma in let l := calculate_Fy0 p b Fz in let r := calculate_Fy p b Fz kappa (Fy0 l) (muy l) in
  (fst (fst r) = Some Fy /\ snd (fst r) = Some G /\ Kya l = Some K /\ By l = Some B) <-> lateral p f kappa alpha gamma Fz Fy K G B.
Proof.
  intros f alpha vx gamma kappa Fz Fy K G B HN b l r. unfold lateral, r, l, calculate_Fy, calculate_Fy0, b, the_basic. cbn [fst snd dfz alpha_star gamma_star LMUY_star LMUY_prime Fz0_prime Fy0 muy Kya By]. rewrite !bend_is. cbv zeta.
  replace (p "RBY1" * cos (atan (p "RBY2" * (alpha - p "RBY3"))) * p "LYKA") with (p "RBY1" * p "LYKA" / sqrt (1 + p "RBY2" * (alpha - p "RBY3") * (p "RBY2" * (alpha - p "RBY3")))) by (rewrite cos_at; unfold Rdiv; ring).
  replace ((p "PDY1" + p "PDY2" * f) * (1 - p "PDY3" * gamma ^ 2) * p "LMUY") with (lat_friction p f gamma) by (unfold lat_friction; ring). rewrite !Rmult_1_r.
  replace (Fz * (p "PVY1" + p "PVY2" * f) * p "LVY" * p "LMUY" + Fz * (p "PVY3" + p "PVY4" * f) * gamma * p "LMUY") with (lat_offset p f gamma Fz) by (unfold lat_offset; ring).
  replace (lat_friction p f gamma * Fz * (p "RVY1" + p "RVY2" * f + p "RVY3" * gamma) * cos (atan (p "RVY4" * alpha)) * sin (p "RVY5" * atan (p "RVY6" * kappa)) * p "LVYKA") with (slip_side_force p f kappa alpha gamma Fz) by (unfold slip_side_force; rewrite cos_at; unfold Rdiv; ring).
  fold (lat_shift p f gamma). set (D := lat_friction p f gamma * Fz). set (C := p "PCY1" * p "LCY"). set (x := alpha + lat_shift p f gamma). set (B' := p "RBY1" * p "LYKA" / _). set (E' := p "REY1" + p "REY2" * f). set (h := p "RHY1" + p "RHY2" * f). set (den := C * D + p "epsilony" * nsign D).
  fold (lat_curvature p f gamma (nsign x)). fold (hill (p "RCY1") E' (B' * h)). fold (hill (p "RCY1") E' (B' * (kappa + h))). set (h0 := hill _ _ (B' * h)). set (h1 := hill _ _ _).
  set (Kc := let? q := odiv Fz (p "LFZO" * p "FNOMIN") in _). assert (forall K, Kc = Some K <-> lat_stiffness p gamma Fz K) as KO.
  { intro K0. unfold Kc, lat_stiffness. set (N := p "LFZO" * p "FNOMIN") in *. split.
    - intro H. apply obind_some in H. destruct H as (q & H1 & H). apply obind_some in H. destruct H as (r0 & H2 & H). injection H as <-. apply odiv_iff in H1, H2. destruct H1 as [_ H1], H2 as [H2 H3]. split; [exact H2|]. exists r0. split; [rewrite <- H1, <- H3; ring|].
      rewrite <- (sin_2at r0). ring.
    - intros (H1 & r0 & H2 & H3). rewrite (odiv_some _ _ HN). cbn [obind]. rewrite (odiv_some _ _ H1). cbn [obind]. replace (Fz / N / p "PKY2") with r0 by (rewrite <- H2; field; auto). f_equal. pose proof (Rle_0_sqr r0) as R2. unfold Rsqr in R2.
      apply Rmult_eq_reg_r with (1 + r0 * r0); [|lra]. rewrite H3. rewrite <- (sin_2at r0). ring. }
  split.
  - intros (H1 & H2 & H3 & H4). rewrite H2 in H1. rewrite H3 in H1, H4. cbn [obind] in H1, H4. rewrite H4 in H1. cbn [obind] in H1. injection H1 as <-. apply odiv_iff in H2, H4. rewrite bend_is.
    exists (nsign D), (nsign x), (D * curve C (lat_curvature p f gamma (nsign x)) (B * x) + lat_offset p f gamma Fz). fold den. apply KO in H3.
    split; [apply nsign_of|]. split; [apply nsign_of|]. split; [exact H3|]. split; [apply H4|]. split; [apply H4|]. split; [reflexivity|]. split; [apply H2|]. split; [apply H2|reflexivity].
  - intros (sD & sx & F0 & S1 & S2 & H1 & H2 & H3 & H4 & H5 & H6 & H7). apply sign_unique in S1, S2. subst sD sx. fold den in H2, H3. apply KO in H1. rewrite H1. cbn [obind].
    assert (odiv h1 h0 = Some G) as -> by (apply odiv_iff; auto). assert (odiv K den = Some B) as -> by (apply odiv_iff; auto). cbn [obind]. rewrite bend_is, H7, H4. auto.
Qed.

Lemma over_ok : forall gamma Fz Fy Mx, calculate_Mx p gamma Fz (Some Fy) = Some Mx <-> overturning p gamma Fz Fy Mx.
Proof.
  intros gamma Fz Fy Mx. unfold calculate_Mx, overturning. cbn [obind]. rewrite obind_some. split.
  - intros (f & H & E). apply odiv_iff in H. destruct H as [H1 H2]. injection E as <-. split; [exact H1|]. rewrite <- H2. ring.
  - intros [H1 H2]. exists (Fy / p "FNOMIN"). split; [now apply odiv_some|]. f_equal. apply Rmult_eq_reg_r with (p "FNOMIN"); [|exact H1]. rewrite H2. field. exact H1.
Qed.
Lemma roll_ok : forall Fz vx Fx My, calculate_My p Fz vx (Some Fx) = Some My <-> rolling p Fz vx Fx My.
Proof.
  intros Fz vx Fx My. unfold calculate_My, rolling. cbn [obind]. rewrite obind_some. split.
  - intros (f & H & E). apply obind_some in E. destruct E as (v & H' & E). apply odiv_iff in H, H'. destruct H as [H1 H2], H' as [H3 H4]. injection E as <-. split; [exact H1|]. split; [exact H3|]. exists v. split; [exact H4|]. replace (Fx / p "FNOMIN") with f by (rewrite <- H2; field; exact H1). ring.
  - intros (H1 & H2 & v & H3 & ->). exists (Fx / p "FNOMIN"). split; [now apply odiv_some|]. apply obind_some. exists v. split; [now apply odiv_iff|]. f_equal. ring.
Qed.
Lemma equiv_ok : forall k kappa a e, equivalent_angle k kappa a e <-> e = atan (sqrt (tan a ^ 2 + k ^ 2 * kappa ^ 2)) * nsign a.
Proof.
  intros k kappa a e. unfold equivalent_angle. replace (tan a * tan a + k * kappa * (k * kappa)) with (tan a ^ 2 + k ^ 2 * kappa ^ 2) by ring. split; [intros (s & S & ->); apply sign_unique in S; subst s; ring|]. intros ->. exists (nsign a). split; [apply nsign_of|ring].
Qed.
Lemma quotient_range : forall a b e, 0 <= e -> sqrt (a * a + b * b) + e <> 0 -> -1 <= a / (sqrt (a * a + b * b) + e) <= 1.
Proof.
  intros a b e He H. pose proof (Rle_0_sqr a) as A2. pose proof (Rle_0_sqr b) as B2. unfold Rsqr in *. pose proof (sqrt_pos (a * a + b * b)) as Q. set (w := sqrt (a * a + b * b)) in *.
  assert (Rabs a <= w) as L. { replace (Rabs a) with (sqrt (a * a)) by (apply sqrt_Rsqr_abs). apply sqrt_le_1_alt. lra. }
  assert (0 < w + e) as P by lra. assert (- w <= a <= w) as [L1 L2]. { pose proof (Rle_abs a). pose proof (Rle_abs (- a)). rewrite Rabs_Ropp in *. lra. }
  split; [apply Rmult_le_reg_r with (w + e)|apply Rmult_le_reg_r with (w + e)]; try exact P; unfold Rdiv; rewrite Rmult_assoc, Rinv_l by lra; lra.
Qed.
Lemma align_ok : forall f alpha vx gamma kappa Fz Fx Kx Fy K B Mz, 0 <= p "epsilonv" -> p "LFZO" * p "FNOMIN" <> 0 -> let b := the_basic f alpha vx gamma in let l := calculate_Fy0 p b Fz in let r := calculate_Fy p b Fz kappa (Fy0 l) (muy l) in
  Kya l = Some K -> By l = Some B -> calculate_Mz p b kappa alpha gamma Fz vx (Some Fx) Kx (Some Fy) l (snd r) = Some Mz <-> aligning p f kappa alpha gamma Fz vx Fx Kx Fy K B Mz.
Proof.
  intros f alpha vx gamma kappa Fz Fx Kx Fy K B Mz HE HN b l r HK HB. unfold calculate_Mz, aligning. rewrite HK, HB. cbn [obind].
  assert (SHy l = lat_shift p f gamma) as -> by reflexivity.
  assert (SVy l = lat_offset p f gamma Fz) as -> by (unfold l, calculate_Fy0, b, the_basic; cbn [SVy dfz LMUY_prime gamma_star]; unfold lat_offset; ring).
  assert (Cy l = p "PCY1" * p "LCY") as -> by reflexivity.
  assert (snd r = slip_side_force p f kappa alpha gamma Fz) as ->.
  { unfold r, calculate_Fy, l, calculate_Fy0, b, the_basic. cbn [snd muy dfz LMUY_star gamma_star alpha_star]. unfold slip_side_force, lat_friction. rewrite cos_at. unfold Rdiv. ring. }
  unfold b, the_basic. cbn [dfz LMUY_star Fz0_prime alpha_prime]. rewrite (odiv_some _ _ HN). cbn [obind]. set (R0 := p "UNLOADED_RADIUS"). set (SHt := p "QHZ1" + _ + _). set (N := p "LFZO" * p "FNOMIN").
  replace (sqrt (vx ^ 2 + (tan alpha * vx) ^ 2)) with (sqrt (vx * vx + vx * tan alpha * (vx * tan alpha))) by (f_equal; ring). set (speed := sqrt _). set (K' := K + p "epsilonk" * nsign K). set (SS := slip_side_force p f kappa alpha gamma Fz).
  assert (forall L a, L <> 0 -> a * p "LKY" / L = a * (p "LKY" / L)) as AL by (intros; unfold Rdiv; ring).
  split.
  - intro H. apply obind_some in H. destruct H as (q1 & D1 & H). apply odiv_iff in D1. destruct D1 as [K1 D1]. apply obind_some in H. destruct H as (bt & D2 & H). apply odiv_iff in D2. destruct D2 as [L1 D2].
    apply obind_some in H. destruct H as (L & D3 & H). apply odiv_iff in D3. destruct D3 as [_ D3]. rewrite (odiv_some _ _ K1) in H. cbn [obind] in H. apply obind_some in H. destruct H as (fy & D4 & H). apply odiv_iff in D4. destruct D4 as [F1 D4].
    apply obind_some in H. destruct H as (ap & D5 & H). apply obind_some in D5. destruct D5 as (c & D5 & E5). injection E5 as <-. apply odiv_iff in D5. destruct D5 as [S1 D5]. assert (forall a b : R, Some a = Some b -> a = b) as SI by congruence. apply SI in H. clear SI. subst Mz.
    assert (bt = (p "QBZ1" + p "QBZ2" * f + p "QBZ3" * (f * f)) * (1 + p "QBZ4" * gamma + p "QBZ5" * Rabs gamma) * (p "LKY" / p "LMUY")) as -> by (apply Rmult_eq_reg_r with (p "LMUY"); [|exact L1]; rewrite D2; field; exact L1).
    assert (L = p "QBZ9" * (p "LKY" / p "LMUY")) as -> by (apply Rmult_eq_reg_r with (p "LMUY"); [|exact L1]; rewrite D3; field; exact L1).
    assert (fy = Fy / p "FNOMIN") as -> by (rewrite <- D4; field; exact F1). assert (q1 = lat_offset p f gamma Fz / K') as -> by (rewrite <- D1; field; exact K1).
    assert (c = vx / (speed + p "epsilonv")) as -> by (rewrite <- D5; field; exact S1). rewrite cos_acos by (apply quotient_range; assumption).
    set (ar := atan (sqrt (tan (alpha + (lat_shift p f gamma + lat_offset p f gamma Fz / K')) ^ 2 + (Kx / K') ^ 2 * kappa ^ 2)) * nsign (alpha + (lat_shift p f gamma + lat_offset p f gamma Fz / K'))).
    set (at_ := atan (sqrt (tan (alpha + SHt) ^ 2 + (Kx / K') ^ 2 * kappa ^ 2)) * nsign (alpha + SHt)).
    exists (nsign K), (nsign vx), ar, at_, K'. split; [apply nsign_of|]. split; [apply nsign_of|]. split; [reflexivity|]. split; [exact K1|]. split; [exact L1|]. split; [exact F1|]. split; [exact S1|].
    split; [apply equiv_ok; reflexivity|]. split; [apply equiv_ok; reflexivity|]. rewrite !Rmult_1_r, Rmult_1_l, cos_at. clearbody ar at_. replace (f ^ 2) with (f * f) by ring. replace (gamma ^ 2) with (gamma * gamma) by ring.
    replace (2 / PI) with (/ (PI / 2)) by (field; pose proof PI_RGT_0; lra). set (BT := (p "QBZ1" + _ + _) * _ * _). unfold Rdiv.
    set (A1 := atan (BT * p "QCZ1" * (alpha + SHt))). replace ((p "QEZ4" + p "QEZ5" * gamma) * / (PI * / 2) * A1) with ((p "QEZ4" + p "QEZ5" * gamma) * (A1 * / (PI * / 2))) by ring. set (c1 := cos (p "QCZ1" * _)). set (rt := / sqrt _). ring.
  - intros (sK & sv & ar & at_ & K0 & S1 & S2 & EK & K1 & L1 & F1 & V1 & A1 & A2 & ->). apply sign_unique in S1, S2. subst sK sv. fold K' in EK. subst K0. apply equiv_ok in A1, A2. fold SHt in A2.
    rewrite (odiv_some _ _ K1). cbn [obind]. rewrite (odiv_some _ _ L1). cbn [obind]. rewrite (odiv_some _ _ L1). cbn [obind]. rewrite (odiv_some _ _ K1). cbn [obind]. rewrite (odiv_some _ _ F1). cbn [obind]. rewrite (odiv_some _ _ V1). cbn [obind].
    rewrite cos_acos by (apply quotient_range; assumption). f_equal. rewrite !(AL _ _ L1), !Rmult_1_r, Rmult_1_l, cos_at. rewrite <- A1, <- A2. clear A1 A2. replace (f ^ 2) with (f * f) by ring. replace (gamma ^ 2) with (gamma * gamma) by ring.
    replace (2 / PI) with (/ (PI / 2)) by (field; pose proof PI_RGT_0; lra). set (BT := (p "QBZ1" + _ + _) * _ * _). fold BT. unfold Rdiv.
    set (A1 := atan (BT * p "QCZ1" * (alpha + SHt))). replace ((p "QEZ4" + p "QEZ5" * gamma) * / (PI * / 2) * A1) with ((p "QEZ4" + p "QEZ5" * gamma) * (A1 * / (PI * / 2))) by ring. set (c1 := cos (p "QCZ1" * _)). set (rt := / sqrt _). ring.
Qed.
End Forces.
