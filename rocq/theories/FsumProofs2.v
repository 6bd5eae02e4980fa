From Verif Require Import Base RBase MeshModel FloatModel FloatSpec FloatProofs FloatProofs2 FloatProofs3 FloatProofs5 FsumModel FsumProofs.
From Flocq Require Import Core.
From Coq Require Import Lra Lia Permutation.
Open Scope R_scope.

(** (1 + u)^k for small k *)
Lemma pw_quad : forall k, INR k <= 1048576 -> pw k <= 1 + INR k * uro + INR k * INR k * (uro * uro).
Proof.
  pose proof uro_pos as U. induction k as [|k IH]; intros Hk.
  - unfold pw. cbn. lra.
  - rewrite pw_S. rewrite S_INR in *. pose proof (pos_INR k) as K0. specialize (IH ltac:(lra)).
    set (x := INR k) in *. clearbody x.
    assert ((1 + uro) * pw k <= (1 + uro) * (1 + x * uro + x * x * (uro * uro))) by (apply Rmult_le_compat_l; lra).
    assert (x * x * uro <= x + 1).
    { assert (x * uro <= 1) by (apply Rle_trans with (1048576 * uro); [apply Rmult_le_compat_r; lra|lra]).
      assert (x * (x * uro) <= x * 1) by (apply Rmult_le_compat_l; lra). lra. }
    assert (x * x * uro * (uro * uro) <= (x + 1) * (uro * uro)) by (apply Rmult_le_compat_r; [apply Rmult_le_pos; lra|assumption]).
    nra.
Qed.
Lemma pw_lin : forall k, INR k <= 1048576 -> pw k - 1 <= (INR k + 1) * uro.
Proof.
  intros k Hk. pose proof (pw_quad k Hk) as Q. pose proof uro_pos as U. pose proof (pos_INR k) as K0.
  set (x := INR k) in *. clearbody x.
  assert (x * x * (uro * uro) <= uro); [|lra].
  assert (x * x <= 1048576 * 1048576) by (apply Rmult_le_compat; lra).
  assert (x * x * uro <= 1).
  { apply Rle_trans with (1048576 * 1048576 * uro); [apply Rmult_le_compat_r; lra|]. unfold uro. lra. }
  replace (x * x * (uro * uro)) with (x * x * uro * uro) by ring.
  replace uro with (1 * uro) at 3 by ring. apply Rmult_le_compat_r; lra.
Qed.
Lemma pw_two : forall k, INR k <= 1048576 -> pw k <= 2.
Proof.
  intros k Hk. pose proof (pw_lin k Hk). pose proof uro_pos as U. pose proof (pos_INR k).
  assert ((INR k + 1) * uro <= 1048577 * uro) by (apply Rmult_le_compat_r; lra). lra.
Qed.

(** sums over pairs of lists *)
Definition pairs (l m : list R) : list (R * R) := combine l m.
Definition wsum (B xd : list R) : R := rsum (map2 (fun b v => Rabs b * (2 * Rabs v + 1)) B xd).

Section Cont.
Variables (len scale : R).
Let H := len * scale.
Let h := fmul len scale.

Lemma t_err : forall v, Rabs (fmul v h - v * H) <= (pw 2 - 1) * Rabs (v * H) + (2 * Rabs v + 1) * eta.
Proof.
  intros v. pose proof uro_pos as U. pose proof eta_pos as ET.
  destruct (fl_abs (len * scale)) as [e [k [He [Hk E]]]]. fold eta in Hk.
  destruct (fl_abs (v * h)) as [d [j [Hd [Hj E']]]]. fold eta in Hj.
  unfold fmul at 1. rewrite E'. unfold h, fmul. rewrite E. fold H.
  replace (v * (H * (1 + e) + k) * (1 + d) + j - v * H) with (v * H * (e + d + e * d) + (v * k * (1 + d) + j)) by ring.
  eapply Rle_trans; [apply Rabs_triang|]. rewrite Rabs_mult.
  assert (A : Rabs (e + d + e * d) <= pw 2 - 1).
  { unfold pw. replace ((1 + uro) ^ 2 - 1) with (2 * uro + uro * uro) by ring.
    apply Rabs_def2b in He. apply Rabs_def2b in Hd. apply Rabs_le. nra. }
  assert (Rabs (v * H) * Rabs (e + d + e * d) <= (pw 2 - 1) * Rabs (v * H)).
  { rewrite Rmult_comm. apply Rmult_le_compat_r; [apply Rabs_pos|exact A]. }
  assert (Rabs (v * k * (1 + d) + j) <= (2 * Rabs v + 1) * eta).
  { eapply Rle_trans; [apply Rabs_triang|]. rewrite !Rabs_mult.
    assert (Rabs (1 + d) <= 2) by (apply Rabs_def2b in Hd; apply Rabs_le; lra).
    assert (Rabs v * Rabs k <= Rabs v * eta) by (apply Rmult_le_compat_l; [apply Rabs_pos|exact Hk]).
    assert (Rabs v * Rabs k * Rabs (1 + d) <= Rabs v * eta * 2).
    { apply Rmult_le_compat; try assumption; try apply Rabs_pos. apply Rmult_le_pos; apply Rabs_pos. }
    lra. }
  lra.
Qed.

Lemma tsum : forall xd B, List.length B = List.length xd ->
  let l := combine (map (fun v => fmul v h) xd) B in
  Rabs (sump l - H * vdot B xd) <= (pw 2 - 1) * (Rabs H * rsum (map2 (fun b v => Rabs (b * v)) B xd)) + wsum B xd * eta /\
  suma l <= pw 2 * (Rabs H * rsum (map2 (fun b v => Rabs (b * v)) B xd)) + wsum B xd * eta.
Proof.
  pose proof eta_pos as ET.
  induction xd as [|v xd IH]; intros B L; destruct B as [|b B]; try discriminate.
  - cbn. unfold vdot, wsum. cbn. rewrite Rmult_0_r, Rminus_0_r, Rabs_R0. lra.
  - cbn [List.length] in L. specialize (IH B ltac:(lia)). cbn [map combine].
    change ((fmul v h, b) :: combine (map (fun v0 => fmul v0 h) xd) B) with ([(fmul v h, b)] ++ combine (map (fun v0 => fmul v0 h) xd) B).
    rewrite sump_app, suma_app, suma_one, sump_one.
    set (l := combine (map (fun v0 => fmul v0 h) xd) B) in *. cbn zeta in IH. destruct IH as [IH1 IH2].
    assert (V : vdot (b :: B) (v :: xd) = b * v + vdot B xd) by reflexivity. rewrite V.
    assert (W : wsum (b :: B) (v :: xd) = Rabs b * (2 * Rabs v + 1) + wsum B xd) by reflexivity. rewrite W.
    cbn [map2 rsum]. set (T := rsum (map2 (fun b0 v0 => Rabs (b0 * v0)) B xd)) in *.
    pose proof (t_err v) as TE. pose proof (pw_ge1 2) as P2.
    assert (TB : Rabs (fmul v h * b - v * H * b) <= (pw 2 - 1) * (Rabs H * Rabs (b * v)) + Rabs b * (2 * Rabs v + 1) * eta).
    { replace (fmul v h * b - v * H * b) with ((fmul v h - v * H) * b) by ring. rewrite Rabs_mult.
      eapply Rle_trans; [apply Rmult_le_compat_r; [apply Rabs_pos|exact TE]|].
      rewrite !Rabs_mult. right. ring. }
    split.
    + replace (fmul v h * b + sump l - H * (b * v + vdot B xd)) with ((fmul v h * b - v * H * b) + (sump l - H * vdot B xd)) by ring.
      eapply Rle_trans; [apply Rabs_triang|]. lra.
    + assert (Rabs (fmul v h * b) <= pw 2 * (Rabs H * Rabs (b * v)) + Rabs b * (2 * Rabs v + 1) * eta).
      { replace (fmul v h * b) with ((fmul v h * b - v * H * b) + v * H * b) by ring.
        eapply Rle_trans; [apply Rabs_triang|].
        replace (Rabs (v * H * b)) with (Rabs H * Rabs (b * v)) by (rewrite !Rabs_mult; ring). lra. }
      lra.
Qed.
End Cont.

Lemma pair_sums : forall xs A, List.length A = List.length xs ->
  sump (combine xs A) = vdot A xs /\ suma (combine xs A) = rsum (map2 (fun a x => Rabs (a * x)) A xs).
Proof.
  induction xs as [|x xs IH]; intros A L; destruct A as [|a A]; try discriminate; [split; reflexivity|].
  cbn [List.length] in L. destruct (IH A ltac:(lia)) as [H1 H2]. cbn [combine].
  change ((x, a) :: combine xs A) with ([(x, a)] ++ combine xs A). rewrite sump_app, suma_app, suma_one, sump_one, H1, H2.
  split; [change (vdot (a :: A) (x :: xs)) with (a * x + vdot A xs); ring|].
  cbn [map2 rsum]. rewrite (Rmult_comm x a). reflexivity.
Qed.

Lemma wsum_pos : forall B xd, 0 <= wsum B xd.
Proof.
  induction B as [|b B IH]; intros [|v xd]; unfold wsum; cbn; try lra.
  specialize (IH xd). unfold wsum in IH. pose proof (Rabs_pos b). pose proof (Rabs_pos v).
  assert (0 <= Rabs b * (2 * Rabs v + 1)) by (apply Rmult_le_pos; lra). lra.
Qed.
Lemma abssum_pos : forall B xd, 0 <= rsum (map2 (fun b v => Rabs (b * v)) B xd).
Proof. induction B as [|b B IH]; intros [|v xd]; cbn; try lra. specialize (IH xd). pose proof (Rabs_pos (b * v)). lra. Qed.

Lemma continuity_err : forall A B xs xd len scale r m,
  List.length A = m -> List.length B = m -> List.length xs = m -> List.length xd = m -> INR m <= 1000000 ->
  fl_continuity A B xs xd len scale r ->
  Rabs (r - (vdot A xs - len * scale * vdot B xd)) <=
    (INR m + 4) * uro * (rsum (map2 (fun a x => Rabs (a * x)) A xs) + Rabs (len * scale) * rsum (map2 (fun b v => Rabs (b * v)) B xd))
    + pow2 (-1073) * (2 * INR m + wsum B xd).
Proof.
  intros A B xs xd len scale r m LA LB Lx Ld Hm [p [q [Hp [Hq ->]]]].
  pose proof uro_pos as U. pose proof eta_pos as ET.
  pose proof (dots_err _ _ Hp) as EP. pose proof (dots_err _ _ Hq) as EQ.
  destruct (pair_sums xs A ltac:(congruence)) as [S1 S2]. rewrite S1, S2 in EP.
  destruct (tsum len scale xd B ltac:(congruence)) as [T1 T2].
  rewrite combine_length, Lx, LA, Nat.min_id in EP. rewrite combine_length, map_length, Ld, LB, Nat.min_id in EQ.
  destruct (fsub_rel p q) as [e [He E]]; [eapply dots_fmt; eauto|eapply dots_fmt; eauto|]. rewrite E. clear E.
  set (l := combine (map (fun v => fmul v (fmul len scale)) xd) B) in *.
  set (H := len * scale) in *.
  pose proof (abssum_pos A xs) as M1. pose proof (abssum_pos B xd) as M2. pose proof (wsum_pos B xd) as W0.
  set (Sa := rsum (map2 (fun a x => Rabs (a * x)) A xs)) in *.
  set (Sb := rsum (map2 (fun b v => Rabs (b * v)) B xd)) in *.
  set (W := wsum B xd) in *. set (HS := Rabs H * Sb) in *.
  assert (HS0 : 0 <= HS) by (apply Rmult_le_pos; [apply Rabs_pos|exact M2]).
  pose proof (pw_ge1 m) as P1. pose proof (pw_ge1 2) as P2. pose proof (pos_INR m) as I0.
  assert (MM : pw (m + 2) = pw m * pw 2) by apply pw_add.
  assert (MS : pw (m + 3) = (1 + uro) * pw (m + 2)) by (rewrite <- pw_S; f_equal; lia).
  assert (PM2 : pw m <= pw (m + 2)) by (apply pw_le; lia).
  (* q against the exact sum *)
  assert (QE : Rabs (q - H * vdot B xd) <= (pw (m + 2) - 1) * HS + pw m * eta * (INR m + W)).
  { replace (q - H * vdot B xd) with ((q - sump l) + (sump l - H * vdot B xd)) by ring.
    eapply Rle_trans; [apply Rabs_triang|].
    assert ((pw m - 1) * suma l <= (pw m - 1) * (pw 2 * HS + W * eta)) by (apply Rmult_le_compat_l; lra).
    rewrite MM. nra. }
  set (K := INR m + (INR m + W)).
  set (M := Sa + HS).
  assert (PQ : Rabs (p - q - (vdot A xs - H * vdot B xd)) <= (pw (m + 2) - 1) * M + pw m * eta * K).
  { replace (p - q - (vdot A xs - H * vdot B xd)) with ((p - vdot A xs) - (q - H * vdot B xd)) by ring.
    eapply Rle_trans; [apply Rabs_triang|]. rewrite Rabs_Ropp.
    assert ((pw m - 1) * Sa <= (pw (m + 2) - 1) * Sa) by (apply Rmult_le_compat_r; lra).
    unfold M, K. lra. }
  assert (EX : Rabs (vdot A xs - H * vdot B xd) <= M).
  { eapply Rle_trans; [apply Rabs_triang|]. rewrite Rabs_Ropp. unfold M. apply Rplus_le_compat.
    - rewrite <- S1, <- S2. apply sump_le.
    - unfold HS. rewrite Rabs_mult. apply Rmult_le_compat_l; [apply Rabs_pos|].
      destruct (pair_sums xd B ltac:(congruence)) as [Z1 Z2]. unfold Sb. rewrite <- Z1, <- Z2. apply sump_le. }
  assert (K0 : 0 <= K) by (unfold K; lra).
  assert (M0 : 0 <= M) by (unfold M; lra).
  assert (PS : Rabs (p - q) <= pw (m + 2) * M + pw m * eta * K).
  { replace (p - q) with ((p - q - (vdot A xs - H * vdot B xd)) + (vdot A xs - H * vdot B xd)) by ring.
    eapply Rle_trans; [apply Rabs_triang|]. lra. }
  replace ((p - q) * (1 + e) - (vdot A xs - H * vdot B xd)) with ((p - q - (vdot A xs - H * vdot B xd)) + (p - q) * e) by ring.
  eapply Rle_trans; [apply Rabs_triang|]. rewrite Rabs_mult.
  assert (R1 : Rabs (p - q) * Rabs e <= (pw (m + 2) * M + pw m * eta * K) * uro).
  { apply Rmult_le_compat; try apply Rabs_pos; assumption. }
  assert (R2 : (pw (m + 3) - 1) * M <= (INR m + 4) * uro * M).
  { apply Rmult_le_compat_r; [exact M0|]. eapply Rle_trans; [apply pw_lin; rewrite plus_INR; simpl; lra|].
    apply Rmult_le_compat_r; [lra|]. rewrite plus_INR. simpl. lra. }
  assert (R3 : pw m * eta * K * (1 + uro) <= pow2 (-1073) * K).
  { assert (pw m <= 2) by (apply pw_two; lra).
    assert (ZE : pow2 (-1073) = 4 * eta).
    { unfold eta. rewrite !pow2_bpow. change (-1073)%Z with (2 + -1075)%Z. rewrite bpow_plus.
      change (bpow radix2 2) with 4. ring. }
    rewrite ZE. replace (pw m * eta * K * (1 + uro)) with ((pw m * (1 + uro)) * (eta * K)) by ring.
    replace (4 * eta * K) with (4 * (eta * K)) by ring. apply Rmult_le_compat_r; [apply Rmult_le_pos; lra|nra]. }
  rewrite MS in R2. unfold M, K in *. lra.
Qed.
