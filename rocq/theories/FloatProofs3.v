From Verif Require Import Base RBase CollocModel CollocProofs MeshModel MeshProofs FloatModel FloatSpec FloatProofs FloatProofs2.
From Flocq Require Import Core Sterbenz Relative.
From Coq Require Import Lra Lia.
Open Scope R_scope.
Local Existing Instance prec53.
Local Existing Instance dexp_valid.
Local Existing Instance dexp_mono.
Local Existing Instance dexp_ne.

(** halfway cases go to the even neighbour *)
Lemma fl_tie : forall x m e, (-1074 <= e)%Z -> (2 ^ 52 <= m < 2 ^ 53)%Z ->
  x = (IZR m + / 2) * bpow radix2 e ->
  fl x = IZR (if Z.even m then m else m + 1)%Z * bpow radix2 e.
Proof.
  intros x m e He Hm Hx.
  assert (B : 0 < bpow radix2 e) by apply bpow_gt_0.
  assert (M1 : 4503599627370496 <= IZR m <= 9007199254740991).
  { split; apply IZR_le; cbn in Hm; lia. }
  assert (M : mag radix2 x = (e + 53)%Z :> BinInt.Z).
  { apply mag_unique. replace (e + 53 - 1)%Z with (52 + e)%Z by lia.
    replace (e + 53)%Z with (53 + e)%Z by lia. rewrite !bpow_plus.
    rewrite Rabs_pos_eq by (rewrite Hx; nra).
    replace (bpow radix2 52) with 4503599627370496 by (cbn; lra).
    replace (bpow radix2 53) with 9007199254740992 by (cbn; lra).
    rewrite Hx. split; [apply Rmult_le_compat_r; lra|apply Rmult_lt_compat_r; lra]. }
  assert (C : cexp radix2 dexp x = e).
  { unfold cexp. rewrite M. unfold dexp, FLT_exp. lia. }
  unfold fl, round, scaled_mantissa. rewrite C. unfold F2R. cbn [Fnum Fexp]. f_equal. f_equal.
  rewrite bpow_opp. rewrite Hx. rewrite Rmult_assoc, Rinv_r, Rmult_1_r by lra.
  assert (F : Zfloor (IZR m + / 2) = m) by (apply Zfloor_imp; rewrite plus_IZR; lra).
  assert (G : Zceil (IZR m + / 2) = (m + 1)%Z) by (apply Zceil_imp; rewrite minus_IZR, plus_IZR; lra).
  unfold Znearest. rewrite F, G.
  rewrite Rcompare_Eq by lra. destruct (Z.even m); reflexivity.
Qed.

(** half of the spacing below 1: the error of a rounded number of [1/2, 1] *)
Lemma fl_err_half : forall x, / 2 <= x <= 1 -> Rabs (fl x - x) <= uro / 2.
Proof.
  intros x Hx. destruct (Req_dec x 1) as [->|N].
  - rewrite fl_id by apply fmt_1. rewrite Rminus_eq_0, Rabs_R0. unfold uro. lra.
  - eapply Rle_trans; [apply error_le_half_ulp; auto with typeclass_instances|].
    rewrite ulp_neq_0 by lra. unfold cexp.
    rewrite (mag_unique radix2 x 0) by (rewrite Rabs_pos_eq by lra; cbn; lra).
    unfold dexp, FLT_exp. cbn. unfold uro. lra.
Qed.
Lemma fl_near_1 : forall x, 1 - uro / 2 <= x <= 1 + uro / 2 -> fl x = 1.
Proof.
  intros x Hx. apply Rle_antisym.
  - replace 1 with (fl (1 + uro / 2)); [apply fl_le; lra|].
    rewrite (fl_compute (1 + uro / 2) (2 ^ 52) (-52)); [cbn; lra|lia| |].
    + rewrite Rabs_pos_eq by (unfold uro; lra). cbn. unfold uro. lra.
    + cbn. unfold uro. apply Rabs_def1; lra.
  - replace 1 with (fl (1 - uro / 2)); [apply fl_le; lra|].
    rewrite (fl_tie (1 - uro / 2) (2 ^ 53 - 1) (-53)); [cbn; lra|lia|cbn; lia|].
    cbn. unfold uro. lra.
Qed.

(** the last point of an interval that ends at 1 *)
Lemma join_one : forall a, fmt a -> 0 <= a < 1 -> fadd a (fsub 1 a) = 1.
Proof.
  intros a Ha H. destruct (Rle_lt_dec (1 / 2) a) as [L|L].
  - rewrite fsub_half; [|apply fmt_1|exact Ha|lra].
    unfold fadd. replace (a + (1 - a)) with 1 by ring. apply fl_id, fmt_1.
  - pose proof (fl_err_half (1 - a) ltac:(lra)) as E. apply Rabs_def2b in E.
    unfold fadd, fsub. apply fl_near_1. lra.
Qed.
Lemma join_half : forall a b, fmt a -> fmt b -> 0 <= a -> a < b -> (a = 0 \/ b <= 2 * a) -> fadd a (fsub b a) = b.
Proof.
  intros a b Ha Hb H0 L [-> | H].
  - unfold fsub, fadd. rewrite Rminus_0_r, Rplus_0_l. rewrite fl_even_id. apply fl_id, Hb.
  - rewrite fsub_half; [|exact Hb|exact Ha|lra]. unfold fadd.
    replace (a + (b - a)) with b by ring. apply fl_id, Hb.
Qed.
Lemma join_err : forall a b, fmt a -> fmt b -> a < b -> Rabs a <= 2 -> Rabs b <= 2 ->
  Rabs (fadd a (fsub b a) - b) <= uro * (b - a) * (1 + uro) + uro * Rabs b.
Proof.
  intros a b Ha Hb L A2 B2.
  destruct (fsub_rel b a Hb Ha) as [e [He E]].
  destruct (fadd_rel a (fsub b a) Ha (fl_fmt _)) as [d [Hd E']]. rewrite E', E.
  replace ((a + (b - a) * (1 + e)) * (1 + d) - b) with ((b - a) * (e * (1 + d)) + d * b) by ring.
  eapply Rle_trans; [apply Rabs_triang|].
  pose proof uro_pos as U.
  assert (Rabs ((b - a) * (e * (1 + d))) <= uro * (b - a) * (1 + uro)).
  { rewrite !Rabs_mult, (Rabs_pos_eq (b - a)) by lra.
    replace (uro * (b - a) * (1 + uro)) with ((b - a) * (uro * (1 + uro))) by ring.
    apply Rmult_le_compat_l; [lra|]. apply Rmult_le_compat; try apply Rabs_pos; [exact He|].
    apply Rabs_def2b in Hd. apply Rabs_le. lra. }
  assert (Rabs (d * b) <= uro * Rabs b).
  { rewrite Rabs_mult. apply Rmult_le_compat_r; [apply Rabs_pos|exact Hd]. }
  lra.
Qed.

(** products, with underflow *)
Lemma fl_abs : forall x, exists eps eta, Rabs eps <= uro /\ Rabs eta <= pow2 (-1075) /\ fl x = x * (1 + eps) + eta.
Proof.
  intros x. destruct (error_N_FLT radix2 (-1074) 53 eq_refl (fun x => negb (Z.even x)) x) as [e [h [He [Hh [_ E]]]]].
  exists e, h. split; [rewrite uro_bpow; exact He|]. split; [|exact E].
  rewrite pow2_bpow. replace (bpow radix2 (-1075)) with (/ 2 * bpow radix2 (-1074)); [exact Hh|].
  change (-1074)%Z with (1 + -1075)%Z. rewrite bpow_plus. cbn [bpow]. change (IZR (Z.pow_pos radix2 1)) with 2. lra.
Qed.
Lemma eta_small : pow2 (-1075) <= uro / 1000000.
Proof.
  rewrite pow2_bpow. eapply Rle_trans; [apply (bpow_le radix2 (-1075) (-100)); lia|].
  rewrite bpow_100. unfold uro. lra.
Qed.

(** stacking rows of equal length *)
Lemma flat_nth : forall (mesh : list (list R)) n m, List.length mesh = n -> (1 <= n)%nat -> (2 <= m)%nat ->
  Forall (fun r => List.length r = m) mesh ->
  exists fm, flat_mesh mesh = Ok fm /\ List.length fm = (n * (m - 1) + 1)%nat /\
    nth 0 fm 0 = nth 0 (nth 0 mesh []) 0 /\
    forall i j, (i < n)%nat -> (1 <= j < m)%nat -> nth (i * (m - 1) + j) fm 0 = nth j (nth i mesh []) 0.
Proof.
  intros mesh n m Hl Hn Hm F. destruct mesh as [|r0 rest]; [cbn in Hl; lia|].
  apply Forall_cons_iff in F. destruct F as [F0 F]. cbn [flat_mesh]. eexists. split; [reflexivity|].
  assert (FT : Forall (fun r => List.length r = (m - 1)%nat) (map (@tl R) rest)).
  { apply Forall_map. apply Forall_forall. intros r Hr. rewrite Forall_forall in F. pose proof (F r Hr) as L.
    destruct r; cbn in *; lia. }
  cbn [List.length] in Hl.
  split; [|split].
  - rewrite app_length, F0, (length_concat_k _ (m - 1)) by assumption. rewrite map_length. nia.
  - cbn [nth]. rewrite app_nth1 by lia. reflexivity.
  - intros i j Hi Hj. destruct i as [|i].
    + change (0 * (m - 1) + j)%nat with j. rewrite app_nth1 by lia. reflexivity.
    + rewrite app_nth2 by (rewrite F0; nia). rewrite F0.
      replace (S i * (m - 1) + j - m)%nat with (i * (m - 1) + (j - 1))%nat by nia.
      rewrite nth_concat_const; [|assumption|rewrite map_length; lia|lia].
      rewrite (nth_map_in _ _ _ _ _ _ (@nil R)) by lia. rewrite nth_tl.
      replace (S (j - 1)) with j by lia. reflexivity.
Qed.

(** every position of the flat mesh is in some row *)
Lemma flat_pos : forall n m s, (2 <= m)%nat -> (S s < n * (m - 1) + 1)%nat ->
  exists i j, (i < n)%nat /\ (j < m - 1)%nat /\ s = (i * (m - 1) + j)%nat /\ S s = (i * (m - 1) + S j)%nat.
Proof.
  intros n m s Hm Hs. exists (s / (m - 1))%nat, (s mod (m - 1))%nat.
  assert (s = (s / (m - 1)) * (m - 1) + s mod (m - 1))%nat as Es by (rewrite Nat.mul_comm; apply Nat.div_mod; lia).
  assert (s mod (m - 1) < m - 1)%nat as Hj by (apply Nat.mod_upper_bound; lia).
  split; [apply Nat.div_lt_upper_bound; nia|]. split; [exact Hj|]. split; [exact Es|lia].
Qed.
Lemma step_mono_le : forall (f : nat -> R) N, (forall s, (S s < N)%nat -> f s <= f (S s)) -> forall a b, (a <= b)%nat -> (b < N)%nat -> f a <= f b.
Proof.
  intros f N H a b Hab. induction Hab as [|b Hab IH]; intros Hb; [lra|].
  eapply Rle_trans; [apply IH; lia|apply H; lia].
Qed.
Lemma nondecreasing_step : forall l, nondecreasing l <-> (forall i, (S i < List.length l)%nat -> nth i l 0 <= nth (S i) l 0).
Proof.
  intros l. split.
  - intros H i Hi. apply H. lia.
  - intros H i j Hij. apply (step_mono_le (fun k => nth k l 0) (List.length l)); [|lia|lia].
    intros s Hs. apply H. exact Hs.
Qed.
