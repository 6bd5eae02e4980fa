From Verif Require Import Base RBase CollocModel CollocProofs MeshModel MeshProofs FloatModel FloatSpec FloatProofs FloatProofs2 FloatProofs3 FloatProofs4.
From Flocq Require Import Core Sterbenz Relative Mult_error.
From Coq Require Import Lra Lia.
Open Scope R_scope.
Local Existing Instance prec53.
Local Existing Instance dexp_valid.
Local Existing Instance dexp_mono.
Local Existing Instance dexp_ne.

(** the uniform mesh times a scale *)
Section Scaled.
Variables (n : nat) (s : R).
Hypothesis n1 : (1 <= n)%nat.
Hypothesis nb : INR n <= two50.
Hypothesis sf : fmt s.
Hypothesis sb : pow2 (-900) <= s.

Lemma s_pos : 0 < s.
Proof. eapply Rlt_le_trans; [|exact sb]. rewrite pow2_bpow. apply bpow_gt_0. Qed.

Lemma upt_low : forall i, (1 <= i <= n)%nat -> / (4 * two50) <= upt n i.
Proof.
  intros i Hi. pose proof (upt_rel n n1 nb i ltac:(lia)) as A. pose proof uro_pos as U.
  pose proof (uh_inv n n1 nb) as V. pose proof (INR_pos1 i ltac:(lia)) as I1.
  assert (/ two50 <= INR i / INR n).
  { unfold Rdiv. unfold two50 in *. nra. }
  set (r := INR i / INR n) in *. apply Rabs_def2b in A.
  assert ((2 * uro + uro * uro) * r <= / 2 * r) by (apply Rmult_le_compat_r; unfold uro, two50 in *; lra).
  unfold two50 in *. lra.
Qed.

Lemma scaled_rel : forall i, (i <= n)%nat ->
  Rabs (fmul (upt n i) s - s * (INR i / INR n)) <= (3 * uro + 3 * uro * uro + uro * uro * uro) * (s * (INR i / INR n)).
Proof.
  intros i Hi. pose proof s_pos as S0. pose proof uro_pos as U.
  destruct (Nat.eq_dec i 0) as [->|I0].
  - rewrite upt_0 by assumption. unfold fmul. rewrite Rmult_0_l, fl_0. change (INR 0) with 0.
    unfold Rdiv. rewrite Rmult_0_l, Rmult_0_r, Rminus_0_r, Rabs_R0. lra.
  - pose proof (upt_low i ltac:(lia)) as LO. unfold two50 in LO.
    assert (HB : bpow radix2 (-1022) <= Rabs (upt n i * s)).
    { rewrite Rabs_pos_eq by nra.
      apply Rle_trans with (bpow radix2 (-60) * pow2 (-900)).
      - rewrite pow2_bpow, <- bpow_plus. apply bpow_le. lia.
      - apply Rmult_le_compat; [apply bpow_ge_0|rewrite pow2_bpow; apply bpow_ge_0| |exact sb].
        eapply Rle_trans; [|exact LO]. cbn. lra. }
    destruct (fl_rel _ HB) as [d [Hd E]]. unfold fmul. rewrite E.
    pose proof (upt_rel n n1 nb i Hi) as A.
    assert (R0 : 0 <= INR i / INR n).
    { pose proof (INR_pos1 n n1). apply Rmult_le_pos; [apply pos_INR|left; apply Rinv_0_lt_compat; lra]. }
    set (r := INR i / INR n) in *. set (a := upt n i) in *. clearbody a r.
    replace (a * s * (1 + d) - s * r) with (s * ((a - r) + (a - r) * d + r * d)) by ring.
    rewrite Rabs_mult, (Rabs_pos_eq s) by lra.
    replace ((3 * uro + 3 * uro * uro + uro * uro * uro) * (s * r)) with (s * ((3 * uro + 3 * uro * uro + uro * uro * uro) * r)) by ring.
    apply Rmult_le_compat_l; [lra|].
    eapply Rle_trans; [apply Rabs_triang|].
    eapply Rle_trans; [apply Rplus_le_compat; [apply Rabs_triang|apply Rle_refl]|].
    rewrite !Rabs_mult, (Rabs_pos_eq r) by lra.
    assert (Rabs (a - r) * Rabs d <= (2 * uro + uro * uro) * r * uro).
    { apply Rmult_le_compat; try apply Rabs_pos; assumption. }
    assert (r * Rabs d <= r * uro) by (apply Rmult_le_compat_l; lra).
    lra.
Qed.

Lemma scaled_step : forall i, (i < n)%nat -> fmul (upt n i) s < fmul (upt n (S i)) s.
Proof.
  intros i Hi. pose proof s_pos as S0. pose proof uro_pos as U. pose proof (INR_pos1 n n1) as N1.
  pose proof (scaled_rel i ltac:(lia)) as A. pose proof (scaled_rel (S i) ltac:(lia)) as B.
  pose proof (uh_inv n n1 nb) as V.
  assert (R1 : 0 <= INR i / INR n <= 1).
  { split.
    - apply Rmult_le_pos; [apply pos_INR|left; apply Rinv_0_lt_compat; lra].
    - apply Rmult_le_reg_r with (INR n); [lra|]. unfold Rdiv. rewrite Rmult_assoc, Rinv_l, Rmult_1_r, Rmult_1_l by lra.
      apply le_INR. lia. }
  replace (INR (S i) / INR n) with (INR i / INR n + / INR n) in B by (rewrite S_INR; unfold Rdiv; ring).
  apply Rabs_def2b in A. apply Rabs_def2b in B.
  set (r := INR i / INR n) in *. set (g := / INR n) in *.
  set (x := fmul (upt n i) s) in *. set (y := fmul (upt n (S i)) s) in *. clearbody x y r g.
  set (c := 3 * uro + 3 * uro * uro + uro * uro * uro) in *.
  assert (C : 0 <= c <= (3001 / 1000) * uro) by (unfold c, uro; lra). clearbody c.

  assert (G0 : 0 < g) by (unfold two50 in V; lra).
  assert (K : c * (r + (r + g)) < g).
  { assert (c * (r + (r + g)) <= (3001 / 1000) * uro * (r + (r + g))) by (apply Rmult_le_compat_r; lra).
    unfold uro, two50 in *. lra. }
  assert (s * (c * (r + (r + g))) < s * g) by (apply Rmult_lt_compat_l; lra).
  lra.
Qed.
Lemma scaled_0 : fmul (upt n 0) s = 0.
Proof. rewrite upt_0 by assumption. unfold fmul. rewrite Rmult_0_l. apply fl_0. Qed.
Lemma scaled_n : fmul (upt n n) s = s.
Proof. rewrite upt_n. unfold fmul. rewrite Rmult_1_l. apply fl_id, sf. Qed.
End Scaled.

(** scaling and unscaling one number *)
Lemma fdiv_mono : forall x y s, 0 < s -> x <= y -> fdiv x s <= fdiv y s.
Proof. intros x y s S0 H. unfold fdiv. apply fl_le. apply Rmult_le_compat_r; [left; apply Rinv_0_lt_compat, S0|exact H]. Qed.
Lemma fmul_mono : forall x y s, 0 < s -> x <= y -> fmul x s <= fmul y s.
Proof. intros x y s S0 H. unfold fmul. apply fl_le. apply Rmult_le_compat_r; lra. Qed.

Lemma roundtrip_err : forall v s, 0 < s ->
  Rabs (fmul (fdiv v s) s - v) <= 3 * uro * Rabs v + 2 * (s + 1) * pow2 (-1075).
Proof.
  intros v s S0. pose proof uro_pos as U.
  destruct (fl_abs (v / s)) as [e [h [He [Hh E]]]].
  destruct (fl_abs (fdiv v s * s)) as [d [k [Hd [Hk E']]]].
  unfold fmul. rewrite E'. unfold fdiv. rewrite E.
  replace ((v / s * (1 + e) + h) * s * (1 + d) + k - v) with (v * (e + d + e * d) + (h * s * (1 + d) + k)) by (field; lra).
  eapply Rle_trans; [apply Rabs_triang|]. apply Rplus_le_compat.
  - rewrite Rabs_mult, (Rmult_comm (3 * uro)). apply Rmult_le_compat_l; [apply Rabs_pos|].
    apply Rabs_def2b in He. apply Rabs_def2b in Hd. apply Rabs_le.
    assert (- (uro * uro) <= e * d <= uro * uro) by nra. unfold uro in *. lra.
  - eapply Rle_trans; [apply Rabs_triang|].
    rewrite !Rabs_mult, (Rabs_pos_eq s) by lra.
    set (t := pow2 (-1075)) in *.
    assert (T0 : 0 <= t) by (eapply Rle_trans; [apply Rabs_pos|exact Hk]).
    assert (Rabs h * s <= t * s) by (apply Rmult_le_compat_r; lra).
    assert (Rabs (1 + d) <= 2) by (apply Rabs_def2b in Hd; apply Rabs_le; lra).
    assert (Rabs h * s * Rabs (1 + d) <= t * s * 2).
    { apply Rmult_le_compat; try assumption; try apply Rabs_pos. apply Rmult_le_pos; [apply Rabs_pos|lra]. }
    lra.
Qed.
Lemma fdiv_0 : forall s, fdiv 0 s = 0.
Proof. intros s. unfold fdiv, Rdiv. rewrite Rmult_0_l. apply fl_0. Qed.
Lemma fmul_0 : forall s, fmul 0 s = 0.
Proof. intros s. unfold fmul. rewrite Rmult_0_l. apply fl_0. Qed.

(** with a power of two nothing is lost, unless the scaled value is subnormal *)
Lemma roundtrip_pow2 : forall v k, fmt v -> (v = 0 \/ pow2 (-1022) <= Rabs (v / pow2 k)) ->
  fmul (fdiv v (pow2 k)) (pow2 k) = v.
Proof.
  intros v k Fv [-> | H].
  - rewrite fdiv_0. apply fmul_0.
  - assert (B : 0 < pow2 k) by (rewrite pow2_bpow; apply bpow_gt_0).
    unfold fdiv. rewrite (fl_id (v / pow2 k)).
    + unfold fmul. replace (v / pow2 k * pow2 k) with v by (field; lra). apply fl_id, Fv.
    + unfold Rdiv in *. rewrite (pow2_bpow k), <- bpow_opp in *. apply mult_bpow_exact_FLT; [exact Fv|].
      rewrite pow2_bpow in H.
      assert (V0 : v <> 0).
      { intros ->. rewrite Rmult_0_l, Rabs_R0 in H. pose proof (bpow_gt_0 radix2 (-1022)). lra. }
      assert (M : (-1022 < mag radix2 (v * bpow radix2 (- k)))%Z).
      { apply mag_gt_bpow. exact H. }
      rewrite mag_mult_bpow in M by exact V0. lia.
Qed.
