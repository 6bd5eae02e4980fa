From Verif Require Import Base RBase MeshModel FloatModel FloatSpec.
From Flocq Require Import Core Relative Plus_error Mult_error Sterbenz.
From Coq Require Import Lra Lia.
Open Scope R_scope.

Local Instance prec53 : Prec_gt_0 53%Z := eq_refl.
Notation fmt := (generic_format radix2 dexp).
Lemma dexp_valid : Valid_exp dexp. Proof. apply FLT_exp_valid. exact prec53. Qed.
Local Existing Instance dexp_valid.
Lemma dexp_mono : Monotone_exp dexp. Proof. apply FLT_exp_monotone. Qed.
Local Existing Instance dexp_mono.
Lemma dexp_ne : Exists_NE radix2 dexp. Proof. apply exists_NE_FLT. right. reflexivity. Qed.
Local Existing Instance dexp_ne.

Lemma pow2_bpow : forall e, pow2 e = bpow radix2 e.
Proof. intros e. unfold pow2. rewrite bpow_powerRZ. reflexivity. Qed.

Lemma double_fmt : forall x, double x <-> fmt x.
Proof.
  intros x. split.
  - intros [m [e [H [Hm He]]]]. apply generic_format_FLT.
    apply (FLT_spec radix2 (-1074) 53 x (Float radix2 m e)); cbn [Fnum Fexp].
    + rewrite H, pow2_bpow. reflexivity.
    + exact Hm.
    + exact He.
  - intros H. apply FLT_format_generic in H; [|exact prec53].
    destruct H as [[m e] H Hm He]. exists m, e. cbn [Fnum Fexp] in *.
    rewrite pow2_bpow. split; [exact H|]. split; [exact Hm|exact He].
Qed.

Lemma fl_fmt : forall x, fmt (fl x).
Proof. intros x. unfold fl. apply generic_format_round; auto with typeclass_instances. Qed.
Lemma fl_double : forall x, double (fl x).
Proof. intros x. apply double_fmt, fl_fmt. Qed.
Lemma fl_id : forall x, fmt x -> fl x = x.
Proof. intros x H. unfold fl. apply round_generic; auto with typeclass_instances. Qed.
Lemma fl_le : forall x y, x <= y -> fl x <= fl y.
Proof. intros x y H. unfold fl. apply round_le; auto with typeclass_instances. Qed.
Lemma fl_0 : fl 0 = 0.
Proof. apply fl_id, generic_format_0. Qed.
Lemma fl_nearest : forall x, nearest x (fl x).
Proof.
  intros x. split; [apply fl_double|]. intros z Hz.
  destruct (round_N_pt radix2 dexp (fun x => negb (Z.even x)) x) as [_ H].
  apply H. apply double_fmt. exact Hz.
Qed.

Lemma fmt_IZR : forall z, (Z.abs z <= 2 ^ 53)%Z -> fmt (IZR z).
Proof.
  intros z H. destruct (Z.eq_dec (Z.abs z) (2 ^ 53)) as [E|E].
  - apply double_fmt. destruct (Z.abs_spec z) as [[_ A]|[_ A]].
    + exists 1%Z, 53%Z. split; [|split; [reflexivity|lia]].
      replace z with (2 ^ 53)%Z by lia. rewrite Rmult_1_l, pow2_bpow. cbn. lra.
    + exists (-1)%Z, 53%Z. split; [|split; [reflexivity|lia]].
      replace z with (- 2 ^ 53)%Z by lia. rewrite pow2_bpow. cbn. lra.
  - apply double_fmt. exists z, 0%Z. split; [rewrite pow2_bpow; cbn; lra|]. split; lia.
Qed.

Lemma fmt_bpow : forall e, (-1074 <= e)%Z -> fmt (bpow radix2 e).
Proof.
  intros e H. apply double_fmt. exists 1%Z, e. rewrite pow2_bpow.
  split; [lra|]. split; [reflexivity|exact H].
Qed.
Lemma fmt_1 : fmt 1.
Proof. apply (fmt_IZR 1). cbn. lia. Qed.

Lemma uro_bpow : uro = / 2 * bpow radix2 (- 53 + 1).
Proof. unfold uro. cbn. lra. Qed.

(** relative error outside the subnormal range *)
Lemma fl_rel : forall x, bpow radix2 (-1022) <= Rabs x ->
  exists eps, Rabs eps <= uro /\ fl x = x * (1 + eps).
Proof.
  intros x H. rewrite uro_bpow.
  exact (relative_error_N_FLT_ex radix2 (-1074) 53 eq_refl _ x H).
Qed.
(** sums never underflow *)
Lemma fadd_rel : forall x y, fmt x -> fmt y ->
  exists eps, Rabs eps <= uro /\ fadd x y = (x + y) * (1 + eps).
Proof.
  intros x y Hx Hy.
  destruct (FLT_plus_error_N_ex radix2 (-1074) 53 (fun x => negb (Z.even x)) x y Hx Hy) as [e [He E]].
  exists e. split; [|exact E].
  eapply Rle_trans; [exact He|]. change (u_ro radix2 53) with (/ 2 * bpow radix2 (- 53 + 1)). rewrite <- uro_bpow.
  assert (0 < uro) by (unfold uro; lra).
  apply Rmult_le_reg_r with (1 + uro); [lra|]. unfold Rdiv.
  rewrite Rmult_assoc, Rinv_l, Rmult_1_r by lra. nra.
Qed.
Lemma fmt_opp : forall x, fmt x -> fmt (- x).
Proof. intros. apply generic_format_opp. assumption. Qed.
Lemma fsub_rel : forall x y, fmt x -> fmt y ->
  exists eps, Rabs eps <= uro /\ fsub x y = (x - y) * (1 + eps).
Proof. intros x y Hx Hy. apply (fadd_rel x (- y) Hx (fmt_opp y Hy)). Qed.

Lemma fsub_pos : forall x y, fmt x -> fmt y -> (0 < fsub x y <-> y < x).
Proof.
  intros x y Hx Hy. split; intros H.
  - apply Rnot_le_lt. intros L. assert (fsub x y <= 0); [|lra].
    unfold fsub. rewrite <- fl_0. apply fl_le. lra.
  - assert (0 <= fsub x y) by (unfold fsub; rewrite <- fl_0; apply fl_le; lra).
    assert (fsub x y <> 0); [|lra].
    unfold fsub, fl. apply round_plus_neq_0; auto with typeclass_instances.
    + apply fmt_opp, Hy.
    + lra.
Qed.

Lemma fl_even_id : forall x, fl (fl x) = fl x.
Proof. intros. apply fl_id, fl_fmt. Qed.

(** to compute [fl] of a given number *)
Lemma fl_compute : forall x m e, (-1074 <= e)%Z ->
  bpow radix2 (e + 52) <= Rabs x < bpow radix2 (e + 53) ->
  Rabs (x - IZR m * bpow radix2 e) < / 2 * bpow radix2 e ->
  fl x = IZR m * bpow radix2 e.
Proof.
  intros x m e He Hx Hd.
  assert (M : mag radix2 x = (e + 53)%Z :> BinInt.Z).
  { apply mag_unique. replace (e + 53 - 1)%Z with (e + 52)%Z by lia. exact Hx. }
  assert (C : cexp radix2 dexp x = e).
  { unfold cexp. rewrite M. unfold dexp, FLT_exp. lia. }
  unfold fl, round, scaled_mantissa. rewrite C. unfold F2R. cbn [Fnum Fexp]. f_equal. f_equal.
  apply Znearest_imp.
  assert (B : 0 < bpow radix2 e) by apply bpow_gt_0.
  rewrite bpow_opp.
  apply Rmult_lt_reg_r with (bpow radix2 e); [exact B|].
  rewrite <- (Rabs_pos_eq (bpow radix2 e)) at 2 by lra.
  rewrite <- Rabs_mult.
  replace ((x * / bpow radix2 e - IZR m) * bpow radix2 e) with (x - IZR m * bpow radix2 e); [exact Hd|].
  field. lra.
Qed.
