From Verif Require Import Base RBase MeshModel FloatModel FloatSpec FloatProofs FloatProofs2 FloatProofs3 FloatProofs5 FsumModel FsumSpec.
From Flocq Require Import Core Mult_error.
From Coq Require Import Lra Lia.
Open Scope R_scope.
Notation bp := (bpow radix2).

Lemma bp_pos : forall k, 0 < bp k. Proof. intros. apply bpow_gt_0. Qed.
Lemma mul_ge : forall a b x y, bp a <= x -> bp b <= y -> bp (a + b) <= x * y.
Proof. intros a b x y H1 H2. rewrite bpow_plus. pose proof (bp_pos a). pose proof (bp_pos b). apply Rmult_le_compat; lra. Qed.
Lemma mul_le : forall a b x y, 0 <= x <= bp a -> 0 <= y <= bp b -> x * y <= bp (a + b).
Proof. intros a b x y H1 H2. rewrite bpow_plus. apply Rmult_le_compat; lra. Qed.
Lemma inv_ge : forall b y, 0 < y <= bp b -> bp (- b) <= / y.
Proof. intros b y H. rewrite bpow_opp. apply Rinv_le_contravar; lra. Qed.
Lemma inv_le : forall b y, bp b <= y -> / y <= bp (- b).
Proof. intros b y H. rewrite bpow_opp. pose proof (bp_pos b). apply Rinv_le_contravar; lra. Qed.

(** rounding of a number in a known range *)
Lemma fl_range : forall x a b, (-1022 <= a)%Z -> bp a <= x <= bp b ->
  bp a <= fl x <= bp b /\ exists e, Rabs e <= uro /\ fl x = x * (1 + e).
Proof.
  intros x a b Ha H. assert (L : bp a <= bp b) by lra.
  assert (Hb : (a <= b)%Z) by (apply le_bpow in L; exact L).
  split.
  - split.
    + rewrite <- (fl_id (bp a)) by (apply fmt_bpow; lia). apply fl_le. lra.
    + rewrite <- (fl_id (bp b)) by (apply fmt_bpow; lia). apply fl_le. lra.
  - apply fl_rel. pose proof (bp_pos a). rewrite Rabs_pos_eq by lra. eapply Rle_trans; [apply bpow_le; exact Ha|lra].
Qed.


Lemma fair_bp : forall s, fair s -> bp (-200) <= s <= bp 200.
Proof. intros s H. unfold fair in H. rewrite !pow2_bpow in H. exact H. Qed.

Lemma quot_rel : forall v w, 0 < w -> bp (-460) <= w <= bp 460 -> sane v ->
  exists d, Rabs d <= uro /\ fdiv v w = v / w * (1 + d).
Proof.
  intros v w W0 HW [-> | HV].
  - exists 0. rewrite Rabs_R0. split; [pose proof uro_pos; lra|]. rewrite fdiv_0. unfold Rdiv. ring.
  - rewrite pow2_bpow in HV. unfold fdiv. apply fl_rel. unfold Rdiv. rewrite Rabs_mult, (Rabs_pos_eq (/ w)) by (left; apply Rinv_0_lt_compat; lra).
    eapply Rle_trans; [apply (bpow_le radix2 (-1022) (-500 + -460)); lia|].
    apply mul_ge; [exact HV|]. apply (inv_ge 460). lra.
Qed.

(** an entry of the scaled jacobian *)
Lemma jac_entry : forall J cs s, sane J -> fair cs -> fair s ->
  Rabs (fdiv J (fdiv cs s) - J * s / cs) <= 3 * uro * Rabs (J * s / cs).
Proof.
  intros J cs s HJ Hc Hs. apply fair_bp in Hc. apply fair_bp in Hs. pose proof uro_pos as U.
  pose proof (bp_pos (-200)) as B0.
  assert (R : bp (-400) <= cs / s <= bp 400).
  { split.
    - apply (mul_ge (-200) (-200)); [lra|]. apply (inv_ge 200). lra.
    - apply (mul_le 200 200); [lra|]. split; [left; apply Rinv_0_lt_compat; lra|apply (inv_le (-200)); lra]. }
  destruct (fl_range (cs / s) (-400) 400 ltac:(lia) R) as [F [e [He E]]].
  pose proof (bp_pos (-400)) as B4.
  assert (F2 : bp (-460) <= fdiv cs s <= bp 460).
  { unfold fdiv. split; [eapply Rle_trans; [apply (bpow_le radix2 (-460) (-400)); lia|lra]|eapply Rle_trans; [|apply (bpow_le radix2 400 460); lia]; lra]. }
  assert (P0 : 0 < fdiv cs s) by (unfold fdiv; lra).
  destruct (quot_rel J (fdiv cs s) P0 F2 HJ) as [d [Hd E2]]. rewrite E2.
  unfold fdiv. rewrite E. apply Rabs_def2b in He. apply Rabs_def2b in Hd.
  replace (J / (cs / s * (1 + e)) * (1 + d) - J * s / cs) with (J * s / cs * ((d - e) / (1 + e))) by (field; repeat split; lra).
  rewrite Rabs_mult, Rmult_comm. apply Rmult_le_compat_r; [apply Rabs_pos|].
  apply Rabs_le. split.
  - apply Rmult_le_reg_r with (1 + e); [lra|]. unfold Rdiv. rewrite Rmult_assoc, Rinv_l, Rmult_1_r by lra. nra.
  - apply Rmult_le_reg_r with (1 + e); [lra|]. unfold Rdiv. rewrite Rmult_assoc, Rinv_l, Rmult_1_r by lra. nra.
Qed.

(** an entry of the scaled hessian *)
Lemma hess_entry : forall V a b, sane V -> fair a -> fair b ->
  Rabs (fdiv V (fdiv 1 (fmul a b)) - V * (a * b)) <= 4 * uro * Rabs (V * (a * b)).
Proof.
  intros V a b HV Ha Hb. apply fair_bp in Ha. apply fair_bp in Hb. pose proof uro_pos as U.
  pose proof (bp_pos (-200)) as B0.
  assert (R : bp (-400) <= a * b <= bp 400).
  { split; [apply (mul_ge (-200) (-200)); lra|apply (mul_le 200 200); lra]. }
  destruct (fl_range (a * b) (-400) 400 ltac:(lia) R) as [F [e [He E]]].
  pose proof (bp_pos (-400)) as B4. fold (fmul a b) in F, E.
  assert (R2 : bp (-400) <= 1 / fmul a b <= bp 400).
  { unfold Rdiv. rewrite Rmult_1_l. split; [apply (inv_ge 400); lra|apply (inv_le (-400)); lra]. }
  destruct (fl_range (1 / fmul a b) (-400) 400 ltac:(lia) R2) as [F2 [g [Hg E2]]]. fold (fdiv 1 (fmul a b)) in F2, E2.
  assert (F3 : bp (-460) <= fdiv 1 (fmul a b) <= bp 460).
  { split; [eapply Rle_trans; [apply (bpow_le radix2 (-460) (-400)); lia|lra]|eapply Rle_trans; [|apply (bpow_le radix2 400 460); lia]; lra]. }
  destruct (quot_rel V (fdiv 1 (fmul a b)) ltac:(lra) F3 HV) as [d [Hd E3]]. rewrite E3.
  rewrite E2, E. apply Rabs_def2b in He. apply Rabs_def2b in Hd. apply Rabs_def2b in Hg.
  replace (V / (1 / (a * b * (1 + e)) * (1 + g)) * (1 + d) - V * (a * b)) with (V * (a * b) * ((e + d + e * d - g) / (1 + g)))
    by (field; repeat split; lra).
  rewrite Rabs_mult, Rmult_comm. apply Rmult_le_compat_r; [apply Rabs_pos|].
  assert (ED : - (uro * uro) <= e * d <= uro * uro) by nra.
  apply Rabs_le. split.
  - apply Rmult_le_reg_r with (1 + g); [lra|]. unfold Rdiv. rewrite Rmult_assoc, Rinv_l, Rmult_1_r by lra. nra.
  - apply Rmult_le_reg_r with (1 + g); [lra|]. unfold Rdiv. rewrite Rmult_assoc, Rinv_l, Rmult_1_r by lra. nra.
Qed.

Lemma con_entry : forall c cs, sane c -> fair cs -> Rabs (fdiv c cs - c / cs) <= uro * Rabs (c / cs).
Proof.
  intros c cs Hv Hc. apply fair_bp in Hc. pose proof (bp_pos (-200)).
  assert (F3 : bp (-460) <= cs <= bp 460).
  { split; [eapply Rle_trans; [apply (bpow_le radix2 (-460) (-200)); lia|lra]|eapply Rle_trans; [|apply (bpow_le radix2 200 460); lia]; lra]. }
  destruct (quot_rel c cs ltac:(lra) F3 Hv) as [d [Hd E]]. rewrite E.
  replace (c / cs * (1 + d) - c / cs) with (d * (c / cs)) by ring. rewrite Rabs_mult.
  apply Rmult_le_compat_r; [apply Rabs_pos|exact Hd].
Qed.
Lemma mul_entry : forall g s, sane g -> fair s -> Rabs (fmul g s - g * s) <= uro * Rabs (g * s).
Proof.
  intros g s [-> | Hg] Hs.
  - rewrite fmul_0, Rmult_0_l, Rminus_0_r, Rabs_R0. lra.
  - apply fair_bp in Hs. rewrite pow2_bpow in Hg. pose proof (bp_pos (-200)).
    destruct (fl_rel (g * s)) as [d [Hd E]].
    { rewrite Rabs_mult, (Rabs_pos_eq s) by lra.
      eapply Rle_trans; [apply (bpow_le radix2 (-1022) (-500 + -200)); lia|]. apply mul_ge; lra. }
    unfold fmul. rewrite E. replace (g * s * (1 + d) - g * s) with (d * (g * s)) by ring. rewrite Rabs_mult.
    apply Rmult_le_compat_r; [apply Rabs_pos|exact Hd].
Qed.

(** powers of two: everything exact *)
Lemma mul_pow2 : forall v k, fmt v -> (-400 <= k)%Z -> sane v -> fmt (v * bp k).
Proof.
  intros v k Fv Hk [-> | H].
  - rewrite Rmult_0_l. apply generic_format_0.
  - rewrite pow2_bpow in H.
    assert (V0 : v <> 0).
    { intros ->. rewrite Rabs_R0 in H. pose proof (bp_pos (-500)). lra. }
    apply mult_bpow_exact_FLT; [exact Fv|].
    assert (M : (-500 < mag radix2 v)%Z) by (apply mag_gt_bpow; exact H). lia.
Qed.
Lemma fdiv_pow2 : forall v k, fmt v -> (k <= 400)%Z -> sane v -> fdiv v (bp k) = v / bp k.
Proof.
  intros v k Fv Hk Hv. unfold fdiv. apply fl_id. unfold Rdiv. rewrite <- bpow_opp. apply mul_pow2; auto. lia.
Qed.
Lemma jac_pow2 : forall J k j, fmt J -> sane J -> (-200 <= k <= 200)%Z -> (-200 <= j <= 200)%Z ->
  fdiv J (fdiv (pow2 k) (pow2 j)) = J * pow2 j / pow2 k.
Proof.
  intros J k j FJ HJ Hk Hj. rewrite !pow2_bpow. pose proof (bp_pos k). pose proof (bp_pos j).
  assert (E : fdiv (bp k) (bp j) = bp (k - j)).
  { unfold fdiv. replace (bp k / bp j) with (bp (k - j)); [apply fl_id, fmt_bpow; lia|].
    unfold Zminus. rewrite bpow_plus, bpow_opp. reflexivity. }
  rewrite E, fdiv_pow2 by (assumption || lia). unfold Zminus. rewrite bpow_plus, bpow_opp. field. lra.
Qed.
Lemma hess_pow2 : forall V k j, fmt V -> sane V -> (-200 <= k <= 200)%Z -> (-200 <= j <= 200)%Z ->
  fdiv V (fdiv 1 (fmul (pow2 k) (pow2 j))) = V * (pow2 k * pow2 j).
Proof.
  intros V k j FV HV Hk Hj. rewrite !pow2_bpow. pose proof (bp_pos k). pose proof (bp_pos j).
  assert (E : fdiv 1 (fmul (bp k) (bp j)) = bp (- (k + j))).
  { unfold fmul. rewrite <- bpow_plus. rewrite fl_id by (apply fmt_bpow; lia).
    unfold fdiv. replace (1 / bp (k + j)) with (bp (- (k + j))); [apply fl_id, fmt_bpow; lia|].
    rewrite bpow_opp. unfold Rdiv. ring. }
  rewrite E, fdiv_pow2 by (assumption || lia). rewrite bpow_opp, bpow_plus. field. lra.
Qed.
Lemma con_pow2 : forall c k, fmt c -> sane c -> (-200 <= k <= 200)%Z -> fdiv c (pow2 k) = c / pow2 k.
Proof. intros c k Fc Hc Hk. rewrite pow2_bpow. apply fdiv_pow2; (assumption || lia). Qed.
Lemma grad_pow2 : forall g k, fmt g -> sane g -> (-200 <= k <= 200)%Z -> fmul g (pow2 k) = g * pow2 k.
Proof. intros g k Fg Hg Hk. rewrite pow2_bpow. unfold fmul. apply fl_id, mul_pow2; (assumption || lia). Qed.
Lemma Rdiv_one : forall x, x / 1 = x.
Proof. intros. unfold Rdiv. rewrite Rinv_1. ring. Qed.
Lemma div_one : forall v, fmt v -> fdiv v (fdiv 1 1) = v /\ fdiv v (fdiv 1 (fmul 1 1)) = v /\ fdiv v 1 = v /\ fmul v 1 = v.
Proof.
  intros v Fv. assert (O : fdiv 1 1 = 1) by (unfold fdiv; rewrite Rdiv_one; apply fl_id, fmt_1).
  assert (O2 : fmul 1 1 = 1) by (unfold fmul; rewrite Rmult_1_r; apply fl_id, fmt_1).
  rewrite O2, O. unfold fdiv, fmul. rewrite Rdiv_one, Rmult_1_r. auto using fl_id.
Qed.
