From Verif Require Import Base RBase MeshModel FloatModel FloatSpec FloatProofs FloatProofs2 FloatProofs3 FloatProofs5 FsumModel.
From Flocq Require Import Core.
From Coq Require Import Lra Lia Permutation.
Open Scope R_scope.

Definition eta : R := pow2 (-1075).
Lemma eta_pos : 0 < eta. Proof. unfold eta. rewrite pow2_bpow. apply bpow_gt_0. Qed.

Definition sump (l : list (R * R)) : R := rsum (map (fun ab => fst ab * snd ab) l).
Definition suma (l : list (R * R)) : R := rsum (map (fun ab => Rabs (fst ab * snd ab)) l).

Lemma rsum_perm : forall l l', Permutation l l' -> rsum l = rsum l'.
Proof. intros l l' P. induction P; cbn; lra. Qed.
Lemma rsum_app : forall l l', rsum (l ++ l') = rsum l + rsum l'.
Proof. induction l; intros; cbn in *; [lra|]. rewrite IHl. lra. Qed.
Lemma sump_perm : forall l l', Permutation l l' -> sump l = sump l'.
Proof. intros. apply rsum_perm. apply Permutation_map. assumption. Qed.
Lemma suma_perm : forall l l', Permutation l l' -> suma l = suma l'.
Proof. intros. apply rsum_perm. apply Permutation_map. assumption. Qed.
Lemma sump_app : forall l l', sump (l ++ l') = sump l + sump l'.
Proof. intros. unfold sump. rewrite map_app. apply rsum_app. Qed.
Lemma suma_app : forall l l', suma (l ++ l') = suma l + suma l'.
Proof. intros. unfold suma. rewrite map_app. apply rsum_app. Qed.
Lemma suma_pos : forall l, 0 <= suma l.
Proof. unfold suma. induction l; cbn; [lra|]. pose proof (Rabs_pos (fst a * snd a)). lra. Qed.
Lemma sump_le : forall l, Rabs (sump l) <= suma l.
Proof. unfold suma, sump. induction l; cbn; [rewrite Rabs_R0; lra|]. eapply Rle_trans; [apply Rabs_triang|]. lra. Qed.

Lemma dots_fmt : forall l v, dots l v -> fmt v.
Proof.
  intros l v H. induction H; try apply fl_fmt; auto. apply generic_format_0.
Qed.

Definition pw (n : nat) : R := (1 + uro) ^ n.
Lemma pw_ge1 : forall n, 1 <= pw n.
Proof. intros. unfold pw. apply pow_R1_Rle. pose proof uro_pos. lra. Qed.
Lemma pw_S : forall n, pw (S n) = (1 + uro) * pw n.
Proof. reflexivity. Qed.
Lemma pw_le : forall n m, (n <= m)%nat -> pw n <= pw m.
Proof. intros. unfold pw. apply Rle_pow; [pose proof uro_pos; lra|assumption]. Qed.
Lemma pw_add : forall n m, pw (n + m) = pw n * pw m.
Proof. intros. apply pow_add. Qed.

Lemma dots_nil_inv : forall l v, dots l v -> l = [] -> v = 0.
Proof.
  intros l v H. induction H; intros E; try discriminate; auto.
  - apply app_eq_nil in E. destruct E as [-> ->]. rewrite IHdots1, IHdots2 by reflexivity.
    unfold fadd. rewrite Rplus_0_r. apply fl_0.
  - subst l'. apply Permutation_sym, Permutation_nil in H. auto.
Qed.

Lemma suma_one : forall a b, suma [(a, b)] = Rabs (a * b).
Proof. intros. unfold suma. cbn. lra. Qed.

Lemma sump_one : forall a b, sump [(a, b)] = a * b.
Proof. intros. unfold sump. cbn. lra. Qed.
(** the error of a computed sum of n products *)
Lemma dots_err : forall l v, dots l v ->
  Rabs (v - sump l) <= (pw (List.length l) - 1) * suma l + INR (List.length l) * eta * pw (List.length l).
Proof.
  pose proof uro_pos as U. pose proof eta_pos as ET.
  intros l v H. induction H as [|a b|l1 l2 v1 v2 H1 IH1 H2 IH2|a b l v H IH|l l' v P H IH].
  - cbn [List.length]. unfold sump, suma. cbn. rewrite Rminus_0_r, Rabs_R0. lra.
  - destruct (fl_abs (a * b)) as [e [h [He [Hh E]]]]. unfold fmul. rewrite E. fold eta in Hh.
    change (List.length [(a, b)]) with 1%nat. rewrite suma_one, sump_one.
    change (INR 1) with 1.
    replace (a * b * (1 + e) + h - a * b) with (a * b * e + h) by ring.
    eapply Rle_trans; [apply Rabs_triang|]. rewrite (Rabs_mult (a * b) e). replace (pw 1) with (1 + uro) by (unfold pw; ring).
    pose proof (Rabs_pos (a * b)).
    assert (Rabs (a * b) * Rabs e <= Rabs (a * b) * uro) by (apply Rmult_le_compat_l; lra). nra.
  - destruct (Nat.eq_dec (List.length l1) 0) as [Z1|Z1].
    { apply length_zero_iff_nil in Z1. subst l1. rewrite (dots_nil_inv _ _ H1 eq_refl).
      cbn [app]. unfold fadd. rewrite Rplus_0_l, fl_id by (eapply dots_fmt; eauto). exact IH2. }
    destruct (Nat.eq_dec (List.length l2) 0) as [Z2|Z2].
    { apply length_zero_iff_nil in Z2. subst l2. rewrite (dots_nil_inv _ _ H2 eq_refl).
      rewrite app_nil_r. unfold fadd. rewrite Rplus_0_r, fl_id by (eapply dots_fmt; eauto). exact IH1. }
    rewrite sump_app, suma_app, app_length.
    destruct (fadd_rel v1 v2) as [e [He E]]; [eapply dots_fmt; eauto|eapply dots_fmt; eauto|]. rewrite E. clear E.
    set (n1 := List.length l1) in *. set (n2 := List.length l2) in *.
    assert (exists K, (n1 + n2 = S K)%nat) as [K EK] by (exists (n1 + n2 - 1)%nat; lia).
    pose proof (pw_le n1 K ltac:(lia)) as P1. pose proof (pw_le n2 K ltac:(lia)) as P2.
    pose proof (suma_pos l1) as T1. pose proof (suma_pos l2) as T2. pose proof (pw_ge1 K) as PK.
    pose proof (sump_le l1) as Q1. pose proof (sump_le l2) as Q2.
    pose proof (pos_INR n1) as I1. pose proof (pos_INR n2) as I2.
    rewrite EK, pw_S. rewrite <- EK, plus_INR.
    assert (A1 : Rabs (v1 - sump l1) <= (pw K - 1) * suma l1 + INR n1 * eta * pw K).
    { eapply Rle_trans; [exact IH1|]. apply Rplus_le_compat.
      - apply Rmult_le_compat_r; lra.
      - apply Rmult_le_compat_l; [apply Rmult_le_pos; lra|lra]. }
    assert (A2 : Rabs (v2 - sump l2) <= (pw K - 1) * suma l2 + INR n2 * eta * pw K).
    { eapply Rle_trans; [exact IH2|]. apply Rplus_le_compat.
      - apply Rmult_le_compat_r; lra.
      - apply Rmult_le_compat_l; [apply Rmult_le_pos; lra|lra]. }
    clear IH1 IH2. set (T := suma l1 + suma l2) in *. set (D := (INR n1 + INR n2) * eta * pw K).
    assert (A : Rabs (v1 + v2 - (sump l1 + sump l2)) <= (pw K - 1) * T + D).
    { replace (v1 + v2 - (sump l1 + sump l2)) with ((v1 - sump l1) + (v2 - sump l2)) by ring.
      eapply Rle_trans; [apply Rabs_triang|]. unfold T, D. lra. }
    assert (Sb : Rabs (v1 + v2) <= pw K * T + D).
    { replace (v1 + v2) with ((v1 + v2 - (sump l1 + sump l2)) + (sump l1 + sump l2)) by ring.
      eapply Rle_trans; [apply Rabs_triang|].
      assert (Rabs (sump l1 + sump l2) <= T) by (eapply Rle_trans; [apply Rabs_triang|]; unfold T; lra). lra. }
    replace ((v1 + v2) * (1 + e) - (sump l1 + sump l2)) with ((v1 + v2 - (sump l1 + sump l2)) + (v1 + v2) * e) by ring.
    eapply Rle_trans; [apply Rabs_triang|]. rewrite Rabs_mult.
    assert (Rabs (v1 + v2) * Rabs e <= (pw K * T + D) * uro).
    { apply Rmult_le_compat; try apply Rabs_pos; assumption. }
    replace (((1 + uro) * pw K - 1) * T + (INR n1 + INR n2) * eta * ((1 + uro) * pw K))
      with ((pw K - 1) * T + D + (pw K * T + D) * uro) by (unfold D; ring).
    lra.
  - destruct (fl_abs (v + a * b)) as [e [h [He [Hh E]]]]. rewrite E. fold eta in Hh.
    change ((a, b) :: l) with ([(a, b)] ++ l). rewrite sump_app, suma_app, suma_one.
    rewrite sump_one.
    cbn [app List.length]. set (n := List.length l) in *. rewrite pw_S, S_INR.
    pose proof (suma_pos l) as T1. pose proof (pw_ge1 n) as PK. pose proof (sump_le l) as Q1. pose proof (pos_INR n) as I1.
    set (T := suma l) in *. set (D := INR n * eta * pw n) in *. set (c := a * b) in *.
    pose proof (Rabs_pos c) as C0.
    assert (D0 : 0 <= D) by (unfold D; apply Rmult_le_pos; [apply Rmult_le_pos|]; lra).
    assert (Sb : Rabs (v + c) <= pw n * T + D + Rabs c).
    { replace (v + c) with ((v - sump l) + sump l + c) by ring.
      eapply Rle_trans; [apply Rabs_triang|]. apply Rplus_le_compat_r.
      eapply Rle_trans; [apply Rabs_triang|]. lra. }
    replace ((v + c) * (1 + e) + h - (c + sump l)) with ((v - sump l) + (v + c) * e + h) by ring.
    eapply Rle_trans; [apply Rabs_triang|]. eapply Rle_trans; [apply Rplus_le_compat_r, Rabs_triang|].
    rewrite Rabs_mult.
    assert (Rabs (v + c) * Rabs e <= (pw n * T + D + Rabs c) * uro).
    { apply Rmult_le_compat; try apply Rabs_pos; assumption. }
    replace (((1 + uro) * pw n - 1) * (Rabs c + T) + (INR n + 1) * eta * ((1 + uro) * pw n))
      with ((pw n - 1) * T + D + (pw n * T + D) * uro + ((1 + uro) * pw n - 1) * Rabs c + eta * ((1 + uro) * pw n))
      by (unfold D; ring).
    assert (uro * Rabs c <= ((1 + uro) * pw n - 1) * Rabs c) by (apply Rmult_le_compat_r; [lra|nra]).
    assert (eta * 1 <= eta * ((1 + uro) * pw n)) by (apply Rmult_le_compat_l; [lra|nra]).
    lra.
  - rewrite <- (sump_perm _ _ P), <- (suma_perm _ _ P), <- (Permutation_length P). exact IH.
Qed.
