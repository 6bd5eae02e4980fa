From Verif Require Import Base RBase CollocModel CollocProofs MeshModel MeshProofs FloatModel FloatSpec FloatProofs.
From Flocq Require Import Core Sterbenz.
From Coq Require Import Lra Lia.
Open Scope R_scope.
Local Existing Instance prec53.
Local Existing Instance dexp_valid.
Local Existing Instance dexp_mono.
Local Existing Instance dexp_ne.

Lemma Rabs_def2b : forall x a, Rabs x <= a -> - a <= x <= a.
Proof. intros x a H. split; [apply Rabs_le_inv in H; lra|apply Rabs_le_inv in H; lra]. Qed.

(** the literal 1e-6 *)
Lemma fl_micro : fl (1 / 1000000) = micro.
Proof.
  unfold micro. rewrite pow2_bpow. apply fl_compute; [lia| |].
  - rewrite Rabs_pos_eq by lra. cbn. lra.
  - cbn. apply Rabs_def1; lra.
Qed.
Lemma micro_val : micro = 4722366482869645 / 4722366482869645213696.
Proof. unfold micro. rewrite pow2_bpow. cbn. lra. Qed.
Lemma micro_small : 0 < micro < 1 / 1000000.
Proof. rewrite micro_val. lra. Qed.

Lemma fsub_half : forall x y, fmt x -> fmt y -> y / 2 <= x <= 2 * y -> fsub x y = x - y.
Proof. intros x y Hx Hy H. unfold fsub. apply fl_id. apply sterbenz; auto with typeclass_instances. Qed.

Lemma fmt_half : fmt (/ 2).
Proof. replace (/ 2) with (bpow radix2 (-1)) by (cbn; lra). apply fmt_bpow. lia. Qed.

Lemma near_one : forall l, fmt l -> (micro <= Rabs (fsub l 1) <-> micro <= Rabs (l - 1)).
Proof.
  intros l Hl. pose proof micro_small as M.
  destruct (Rlt_le_dec l (1 / 2)) as [A|A].
  - assert (fsub l 1 <= - / 2).
    { rewrite <- (fl_id (- / 2)) by (apply fmt_opp, fmt_half). unfold fsub. apply fl_le. lra. }
    rewrite !Rabs_left by lra. split; intros; lra.
  - destruct (Rlt_le_dec 2 l) as [B|B].
    + assert (1 <= fsub l 1).
      { rewrite <- (fl_id 1) at 1 by apply fmt_1. unfold fsub. apply fl_le. lra. }
      rewrite !Rabs_pos_eq by lra. split; intros; lra.
    + rewrite fsub_half; [reflexivity|exact Hl|apply fmt_1|lra].
Qed.

Lemma fl_diff_pos : forall l, doubles l ->
  forallb (fun d => rltb 0 d) (fl_diff l) = forallb (fun d => rltb 0 d) (npdiff l).
Proof.
  induction l as [|a l IH]; intros D; [reflexivity|].
  destruct l as [|b l]; [reflexivity|].
  change (fl_diff (a :: b :: l)) with (fsub b a :: fl_diff (b :: l)).
  change (npdiff (a :: b :: l)) with (b - a :: npdiff (b :: l)). cbn [forallb]. rewrite IH by (intros x Hx; apply D; right; exact Hx). f_equal.
  assert (Fa : fmt a) by (apply double_fmt, D; left; reflexivity).
  assert (Fb : fmt b) by (apply double_fmt, D; right; left; reflexivity).
  pose proof (fsub_pos b a Fb Fa) as H.
  unfold rltb. destruct (Rlt_dec 0 (fsub b a)) as [A|A]; destruct (Rlt_dec 0 (b - a)) as [B|B]; try reflexivity.
  - apply H in A. lra.
  - exfalso. apply A, H. lra.
Qed.

Lemma increasing_step : forall l, increasing l <-> (forall i, (S i < List.length l)%nat -> nth i l 0 < nth (S i) l 0).
Proof.
  intros l. split.
  - intros H i Hi. apply H. lia.
  - intros H i j Hij. apply (step_mono_all (fun k => nth k l 0) (List.length l)); [|lia|lia].
    intros s Hs. apply H. exact Hs.
Qed.

Lemma last_double : forall l, doubles l -> fmt (last l 0).
Proof.
  intros l D. rewrite last_nth_gen. destruct l as [|a l]; [apply generic_format_0|].
  apply double_fmt, D, nth_In. cbn. lia.
Qed.

Lemma fl_check_ok : forall n p, doubles p ->
  (fl_check n p = Ok tt <->
   List.length p = (n + 1)%nat /\ Rabs (nth 0 p 0) < micro /\ Rabs (nth n p 0 - 1) < micro /\ increasing p).
Proof.
  intros n p D. unfold fl_check. rewrite fl_micro.
  rewrite fl_diff_pos by exact D.
  rewrite increasing_step, <- npdiff_pos.
  destruct (Nat.eqb_spec (List.length p) (n + 1)) as [L|L]; simpl; [|split; [discriminate|intros (H & _); contradiction]].
  assert (E : last p 0 = nth n p 0) by (rewrite last_nth_gen; f_equal; lia).
  pose proof (near_one (last p 0) (last_double p D)) as N. rewrite <- E.
  destruct (rleb micro (Rabs (nth 0 p 0))) eqn:E1; simpl.
  { apply rleb_iff in E1. split; [discriminate|intros (_ & H & _); lra]. }
  destruct (rleb micro (Rabs (fsub (last p 0) 1))) eqn:E2; simpl.
  { apply rleb_iff in E2. apply N in E2. split; [discriminate|intros (_ & _ & H & _); lra]. }
  apply rleb_false in E1. apply rleb_false in E2.
  assert (Rabs (last p 0 - 1) < micro) by (apply Rnot_le_lt; intros A; apply N in A; lra).
  destruct (forallb _ (npdiff p)); simpl; split; auto; try discriminate. intros (_ & _ & _ & H'); discriminate.
Qed.
Lemma fl_check_err : forall n p, fl_check n p = Ok tt \/ fl_check n p = Raise ValueError.
Proof. intros. unfold fl_check. destruct (negb _); auto. destruct (orb _ _); auto. destruct (negb _); auto. Qed.

(** the uniform mesh *)
Definition two50 : R := 1125899906842624.

Lemma INR_fmt : forall i, INR i <= 2 * two50 -> fmt (INR i).
Proof.
  intros i H. rewrite INR_IZR_INZ in *. apply fmt_IZR. unfold two50 in H.
  assert (Z.of_nat i <= 2251799813685248)%Z by (apply le_IZR; lra). cbn. lia.
Qed.
Lemma INR_pos1 : forall n, (1 <= n)%nat -> 1 <= INR n.
Proof. intros n H. apply (le_INR 1) in H. exact H. Qed.

Lemma bpow_big : bpow radix2 (-1022) <= bpow radix2 (-100).
Proof. apply bpow_le. lia. Qed.
Lemma bpow_100 : bpow radix2 (-100) = / 1267650600228229401496703205376.
Proof. cbn. lra. Qed.

Lemma uro_pos : 0 < uro < / 1000000000000000.
Proof. unfold uro. lra. Qed.

Section Uniform.
Variable n : nat.
Hypothesis n1 : (1 <= n)%nat.
Hypothesis nb : INR n <= two50.
Let h := fdiv 1 (INR n).

Lemma uh_inv : / two50 <= / INR n <= 1.
Proof.
  pose proof (INR_pos1 n n1). split.
  - apply Rinv_le_contravar; [lra|exact nb].
  - rewrite <- Rinv_1. apply Rinv_le_contravar; lra.
Qed.
Lemma uh_rel : exists e, Rabs e <= uro /\ h = / INR n * (1 + e).
Proof.
  pose proof uh_inv as H. unfold h, fdiv. replace (1 / INR n) with (/ INR n) by (unfold Rdiv; ring).
  apply fl_rel. rewrite Rabs_pos_eq by (unfold two50 in H; lra).
  eapply Rle_trans; [apply bpow_big|]. rewrite bpow_100. unfold two50 in H. lra.
Qed.
Lemma uh_fmt : fmt h. Proof. apply fl_fmt. Qed.
Lemma uh_bounds : / INR n * (1 - uro) <= h <= / INR n * (1 + uro).
Proof.
  destruct uh_rel as [e [He E]]. rewrite E. pose proof uh_inv. unfold two50 in H.
  apply Rabs_def2b in He. split; apply Rmult_le_compat_l; lra.
Qed.
Lemma uh_pos : / (2 * two50) <= h.
Proof. pose proof uh_bounds. pose proof uh_inv. pose proof uro_pos. unfold two50 in *. nra. Qed.

Definition upt (i : nat) : R := if Nat.eqb i n then 1 else fl (INR i * fdiv 1 (INR n)).

Lemma upt_list : fl_linspace01 n = map upt (seq 0 (n + 1)).
Proof.
  unfold fl_linspace01. destruct n as [|k] eqn:En; [lia|]. rewrite <- En in *.
  replace (n + 1)%nat with (S n) by lia. rewrite seq_S, map_app. cbn [map]. f_equal.
  - apply map_ext_in. intros i Hi. apply in_seq in Hi. unfold upt.
    destruct (Nat.eqb_spec i n); [lia|]. unfold fadd, fmul. rewrite Rplus_0_r. apply fl_even_id.
  - unfold upt. rewrite Nat.add_0_l, Nat.eqb_refl. reflexivity.
Qed.
Lemma upt_nth : forall i, (i <= n)%nat -> nth i (fl_linspace01 n) 0 = upt i.
Proof.
  intros i Hi. rewrite upt_list. rewrite (nth_map_in _ _ _ _ _ _ 0%nat) by (rewrite seq_length; lia).
  rewrite seq_nth by lia. reflexivity.
Qed.
Lemma upt_len : List.length (fl_linspace01 n) = (n + 1)%nat.
Proof. rewrite upt_list, map_length, seq_length. reflexivity. Qed.
Lemma upt_fmt : forall i, fmt (upt i).
Proof. intros i. unfold upt. destruct (Nat.eqb i n); [apply fmt_1|apply fl_fmt]. Qed.
Lemma upt_0 : upt 0 = 0.
Proof. unfold upt. destruct (Nat.eqb_spec 0 n); [lia|]. change (INR 0) with 0. rewrite Rmult_0_l. apply fl_0. Qed.
Lemma upt_n : upt n = 1.
Proof. unfold upt. rewrite Nat.eqb_refl. reflexivity. Qed.

Lemma upt_rel : forall i, (i <= n)%nat ->
  Rabs (upt i - INR i / INR n) <= (2 * uro + uro * uro) * (INR i / INR n).
Proof.
  intros i Hi. pose proof uro_pos as U. pose proof (INR_pos1 n n1) as N1.
  assert (I0 : 0 <= INR i) by apply pos_INR.
  assert (Q : 0 <= INR i / INR n) by (apply Rmult_le_pos; [lra|left; apply Rinv_0_lt_compat; lra]).
  unfold upt. destruct (Nat.eqb_spec i n) as [->|Hn].
  - unfold Rdiv. rewrite Rinv_r by lra. rewrite Rminus_eq_0, Rabs_R0. nra.
  - destruct i as [|i].
    + change (INR 0) with 0 in *. unfold Rdiv. rewrite !Rmult_0_l, fl_0, Rminus_0_r, Rabs_R0. lra.
    + fold h. assert (1 <= INR (S i)) by (apply INR_pos1; lia).
      assert (HB : bpow radix2 (-1022) <= Rabs (INR (S i) * h)).
      { pose proof uh_pos as P. unfold two50 in P. rewrite Rabs_pos_eq by nra.
        eapply Rle_trans; [apply bpow_big|]. rewrite bpow_100. nra. }
      destruct (fl_rel _ HB) as [d [Hd E]]. destruct uh_rel as [e [He E']].
      rewrite E, E'. unfold Rdiv in *. set (q := INR (S i) * / INR n) in *.
      replace (INR (S i) * (/ INR n * (1 + e)) * (1 + d) - q) with (q * (e + d + e * d)) by (unfold q; ring).
      rewrite Rabs_mult, (Rabs_pos_eq q) by exact Q. rewrite Rmult_comm. apply Rmult_le_compat_r; [exact Q|].
      apply Rabs_def2b in He. apply Rabs_def2b in Hd. apply Rabs_le. nra.
Qed.

Lemma upt_step : forall i, (i < n)%nat -> upt i < upt (S i).
Proof.
  intros i Hi. pose proof uro_pos as U. pose proof (INR_pos1 n n1) as N1.
  pose proof (upt_rel i) as A. pose proof (upt_rel (S i)) as B.
  specialize (A ltac:(lia)). specialize (B ltac:(lia)).
  apply Rabs_def2b in A. apply Rabs_def2b in B. rewrite S_INR in B. unfold Rdiv in *.
  pose proof uh_inv as V. pose proof (pos_INR i) as I0.
  assert (Hin : INR i * / INR n <= 1).
  { apply Rmult_le_reg_r with (INR n); [lra|]. rewrite Rmult_assoc, Rinv_l, Rmult_1_r, Rmult_1_l by lra.
    apply le_INR. lia. }
  set (r := INR i * / INR n) in *.
  replace ((INR i + 1) * / INR n) with (r + / INR n) in B by (unfold r; ring).
  assert (0 <= r) by (apply Rmult_le_pos; [lra|unfold two50 in V; lra]).
  assert ((2 * uro + uro * uro) * (r + (r + / INR n)) < / two50).
  { unfold two50, uro in *. nra. }
  lra.
Qed.
Lemma upt_mono : forall i j, (i < j)%nat -> (j <= n)%nat -> upt i < upt j.
Proof. intros i j H1 H2. apply (step_mono_all upt (S n)); [|lia|lia]. intros s Hs. apply upt_step. lia. Qed.
Lemma upt_01 : forall i, (i <= n)%nat -> 0 <= upt i <= 1.
Proof.
  intros i Hi. rewrite <- upt_0, <- upt_n. split.
  - destruct (Nat.eq_dec i 0) as [->|]; [lra|]. left. apply upt_mono; lia.
  - destruct (Nat.eq_dec i n) as [->|]; [rewrite upt_n; lra|]. left. apply upt_mono; lia.
Qed.

(** consecutive points are within a factor of two, except for the first *)
Lemma upt_half : forall i, (1 <= i < n)%nat -> upt (S i) <= 2 * upt i.
Proof.
  intros i Hi. destruct (Nat.eq_dec i 1) as [->|H1].
  - assert (E : upt 1 = h).
    { unfold upt. destruct (Nat.eqb_spec 1 n); [lia|]. change (INR 1) with 1. rewrite Rmult_1_l. fold h. apply fl_id, uh_fmt. }
    rewrite E. unfold upt. destruct (Nat.eqb_spec 2 n) as [En|En].
    + unfold h. rewrite <- En. replace (INR 2) with 2 by (cbn; lra).
      unfold fdiv. rewrite fl_id by (replace (1 / 2) with (/ 2) by lra; apply fmt_half). lra.
    + fold h. replace (INR 2) with 2 by (cbn; lra).
      assert (F : fmt (2 * h)).
      { pose proof uh_fmt as F. apply double_fmt in F. destruct F as [m [e [F [Fm Fe]]]].
        apply double_fmt. exists m, (e + 1)%Z. rewrite F, !pow2_bpow, bpow_plus. split; [cbn; ring|]. split; lia. }
      rewrite fl_id by exact F. lra.
  - pose proof uro_pos as U. pose proof (INR_pos1 n n1) as N1.
    pose proof (upt_rel i) as A. pose proof (upt_rel (S i)) as B.
    specialize (A ltac:(lia)). specialize (B ltac:(lia)).
    apply Rabs_def2b in A. apply Rabs_def2b in B. rewrite S_INR in B. unfold Rdiv in *.
    assert (2 <= INR i) by (apply (le_INR 2); lia).
    pose proof uh_inv as V. unfold two50 in V.
    assert (V0 : 0 < / INR n) by lra.
    assert (INR i * / INR n * 2 - (INR i + 1) * / INR n = (INR i - 1) * / INR n) by ring.
    set (r := INR i * / INR n) in *.
    replace ((INR i + 1) * / INR n) with (r + / INR n) in * by (unfold r; ring).
    assert (r = INR i * / INR n) by reflexivity.
    assert (2 * / INR n <= r) by (unfold r; nra).
    assert (r - / INR n >= r / 2) by lra.
    assert (D : 0 <= 2 * uro + uro * uro <= / 100000000) by (unfold uro; lra).
    set (d := 2 * uro + uro * uro) in *. clearbody d. clear - A B D H3 V0.
    set (g := / INR n) in *. clearbody r g.
    assert (d * r <= / 100000000 * r) by (apply Rmult_le_compat_r; lra).
    assert (d * (r + g) <= / 100000000 * (r + g)) by (apply Rmult_le_compat_r; lra). lra.
Qed.

(** so that going back from a difference gives the point *)
Lemma upt_join : forall i, (i < n)%nat -> fadd (upt i) (fsub (upt (S i)) (upt i)) = upt (S i).
Proof.
  intros i Hi. destruct (Nat.eq_dec i 0) as [->|H0].
  - rewrite upt_0. unfold fsub. rewrite Rminus_0_r, fl_id by apply upt_fmt.
    unfold fadd. rewrite Rplus_0_l. apply fl_id, upt_fmt.
  - rewrite fsub_half; try apply upt_fmt.
    + unfold fadd. replace (upt i + (upt (S i) - upt i)) with (upt (S i)) by ring. apply fl_id, upt_fmt.
    + pose proof (upt_half i ltac:(lia)). pose proof (upt_step i Hi).
      pose proof (upt_01 i ltac:(lia)). lra.
Qed.

Lemma upt_len_err : forall i, (i < n)%nat ->
  0 < fsub (upt (S i)) (upt i) /\ Rabs (fsub (upt (S i)) (upt i) - / INR n) <= 6 * uro.
Proof.
  intros i Hi. split; [apply fsub_pos; try apply upt_fmt; apply upt_step, Hi|].
  destruct (fsub_rel (upt (S i)) (upt i) (upt_fmt _) (upt_fmt _)) as [e [He E]]. rewrite E.
  pose proof uro_pos as U. pose proof (INR_pos1 n n1) as N1.
  pose proof (upt_rel i) as A. pose proof (upt_rel (S i)) as B.
  specialize (A ltac:(lia)). specialize (B ltac:(lia)).
  assert (Q : forall j, (j <= n)%nat -> 0 <= INR j / INR n <= 1).
  { intros j Hj. split.
    - apply Rmult_le_pos; [apply pos_INR|left; apply Rinv_0_lt_compat; lra].
    - apply Rmult_le_reg_r with (INR n); [lra|]. unfold Rdiv. rewrite Rmult_assoc, Rinv_l, Rmult_1_r, Rmult_1_l by lra.
      apply le_INR. lia. }
  pose proof (Q i ltac:(lia)) as Qi. pose proof (Q (S i) ltac:(lia)) as Qs.
  assert (D : INR (S i) / INR n = INR i / INR n + / INR n) by (rewrite S_INR; unfold Rdiv; ring).
  rewrite D in *. pose proof uh_inv as V.
  apply Rabs_def2b in A. apply Rabs_def2b in B. apply Rabs_def2b in He.
  set (r := INR i / INR n) in *. set (g := / INR n) in *.
  set (a := upt i) in *. set (b := upt (S i)) in *.
  assert (Z1 : (2 * uro + uro * uro) * r <= 2 * uro + uro * uro) by nra.
  assert (Z2 : (2 * uro + uro * uro) * (r + g) <= 2 * uro + uro * uro) by nra.
  assert (Z3 : -(4 * uro + 2 * uro * uro) <= b - a - g <= 4 * uro + 2 * uro * uro) by lra.
  set (w := b - a) in *. assert (W : 0 <= w <= 1 + 5 * uro).
  { split; [unfold w; pose proof (upt_step i Hi); fold a b in H; lra|]. nra. }
  assert (- (uro * (1 + 5 * uro)) <= w * e <= uro * (1 + 5 * uro)).
  { split; [|nra]. nra. }
  apply Rabs_le. replace (w * (1 + e) - g) with ((w - g) + w * e) by ring. unfold uro in *. lra.
Qed.
End Uniform.
