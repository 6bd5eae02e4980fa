From Verif Require Import Base RBase CollocModel CollocProofs MeshModel MeshProofs FloatModel FloatSpec FloatProofs FloatProofs2 FloatProofs3.
From Flocq Require Import Core Sterbenz Relative.
From Coq Require Import Lra Lia.
Open Scope R_scope.
Local Existing Instance prec53.
Local Existing Instance dexp_valid.
Local Existing Instance dexp_mono.
Local Existing Instance dexp_ne.

Definition rowpt (a b q : R) : R := fadd a (fmul q (fsub b a)).

Lemma row_0 : forall a b, fmt a -> rowpt a b 0 = a.
Proof.
  intros a b Ha. unfold rowpt, fmul. rewrite Rmult_0_l, fl_0. unfold fadd. rewrite Rplus_0_r. apply fl_id, Ha.
Qed.
Lemma row_1 : forall a b, rowpt a b 1 = fadd a (fsub b a).
Proof. intros a b. unfold rowpt, fmul. rewrite Rmult_1_l. unfold fsub. rewrite fl_even_id. reflexivity. Qed.
Lemma row_mono : forall a b q q', a < b -> q <= q' -> rowpt a b q <= rowpt a b q'.
Proof.
  intros a b q q' L H. unfold rowpt, fadd. apply fl_le. apply Rplus_le_compat_l. unfold fmul. apply fl_le.
  apply Rmult_le_compat_r; [|exact H]. unfold fsub. rewrite <- fl_0. apply fl_le. lra.
Qed.
Lemma row_fmt : forall a b q, fmt (rowpt a b q).
Proof. intros. apply fl_fmt. Qed.

(** one point, from the length actually used *)
Lemma row_err : forall a b q, fmt a -> 0 <= a <= 1 -> 0 <= fsub b a <= 2 -> 0 <= q <= 1 -> a + fsub b a <= 2 ->
  exists y, Rabs (y - (a + q * fsub b a)) <= uro * fsub b a + uro / 1000000 /\
            0 <= y <= 2 + 3 * uro /\ Rabs (rowpt a b q - y) <= uro * y.
Proof.
  intros a b q Ha A L Q AL. pose proof uro_pos as U. pose proof eta_small as ES.
  destruct (fl_abs (q * fsub b a)) as [e [h [He [Hh E]]]].
  exists (a + fmul q (fsub b a)).
  assert (F0 : 0 <= fmul q (fsub b a)).
  { unfold fmul. rewrite <- fl_0. apply fl_le. nra. }
  assert (EQ : Rabs (a + fmul q (fsub b a) - (a + q * fsub b a)) <= uro * fsub b a + uro / 1000000).
  { unfold fmul. rewrite E.
    replace (a + (q * fsub b a * (1 + e) + h) - (a + q * fsub b a)) with (q * fsub b a * e + h) by ring.
    eapply Rle_trans; [apply Rabs_triang|].
    apply Rplus_le_compat; [|lra]. rewrite Rabs_mult, Rabs_pos_eq by nra.
    replace (uro * fsub b a) with (fsub b a * uro) by ring.
    apply Rmult_le_compat; try nra; [apply Rabs_pos]. }
  split; [exact EQ|]. split.
  - split; [lra|]. apply Rabs_def2b in EQ. nra.
  - destruct (fadd_rel a (fmul q (fsub b a)) Ha (fl_fmt _)) as [d [Hd E']].
    unfold rowpt. rewrite E'.
    replace ((a + fmul q (fsub b a)) * (1 + d) - (a + fmul q (fsub b a))) with (d * (a + fmul q (fsub b a))) by ring.
    rewrite Rabs_mult, (Rabs_pos_eq (a + fmul q (fsub b a))) by lra.
    apply Rmult_le_compat_r; lra.
Qed.

(** the rows of the mesh *)
Lemma mesh_row_nil : forall p i, fl_interval_mesh [] p i = [nth i p 0; nth (i + 1) p 0].
Proof. reflexivity. Qed.
Lemma mesh_row : forall pts p i, pts <> [] ->
  fl_interval_mesh pts p i = map (rowpt (nth i p 0) (nth (i + 1) p 0)) pts.
Proof. intros pts p i H. destruct pts; [congruence|reflexivity]. Qed.

Section Rows.
Variables (p pts : list R) (n : nat).
Hypothesis n1 : (1 <= n)%nat.
Hypothesis m2 : (2 <= List.length pts)%nat.
Let m := List.length pts.
Let mesh := map (fl_interval_mesh pts p) (seq 0 n).

Lemma rows_len : List.length mesh = n.
Proof. unfold mesh. rewrite map_length, seq_length. reflexivity. Qed.
Lemma rows_ne : pts <> [].
Proof. intros E. rewrite E in m2. cbn in m2. lia. Qed.
Lemma rows_row : forall i, (i < n)%nat -> nth i mesh [] = map (rowpt (nth i p 0) (nth (i + 1) p 0)) pts.
Proof.
  intros i Hi. unfold mesh. rewrite (nth_map_in _ _ _ _ _ _ 0%nat) by (rewrite seq_length; lia).
  rewrite seq_nth by lia. apply mesh_row, rows_ne.
Qed.
Lemma rows_nth : forall i j, (i < n)%nat -> (j < m)%nat ->
  nth j (nth i mesh []) 0 = rowpt (nth i p 0) (nth (i + 1) p 0) (nth j pts 0).
Proof. intros i j Hi Hj. rewrite rows_row by exact Hi. apply (nth_map_in _ _ _ _ _ _ 0). exact Hj. Qed.
Lemma rows_forall : Forall (fun r => List.length r = m) mesh.
Proof.
  unfold mesh. apply Forall_map, Forall_forall. intros i _. rewrite mesh_row by apply rows_ne.
  apply map_length.
Qed.
End Rows.

(** two stages: the flat mesh is the list of interval points *)
Lemma flat_two : forall p n, (1 <= n)%nat -> List.length p = (n + 1)%nat ->
  flat_mesh (map (fl_interval_mesh [] p) (seq 0 n)) = Ok p.
Proof.
  intros p n Hn Hp.
  destruct (flat_nth (map (fl_interval_mesh [] p) (seq 0 n)) n 2) as [fm [E [L [Z H]]]].
  - rewrite map_length, seq_length. reflexivity.
  - exact Hn.
  - lia.
  - apply Forall_map, Forall_forall. intros i _. reflexivity.
  - rewrite E. f_equal. apply (nth_ext _ _ 0 0); [lia|].
    intros s Hs.
    assert (R : forall i, (i < n)%nat -> nth i (map (fl_interval_mesh [] p) (seq 0 n)) [] = [nth i p 0; nth (i + 1) p 0]).
    { intros i Hi. rewrite (nth_map_in _ _ _ _ _ _ 0%nat) by (rewrite seq_length; lia). rewrite seq_nth by lia. reflexivity. }
    destruct s as [|s].
    + rewrite Z, R by lia. reflexivity.
    + specialize (H s 1%nat). rewrite R in H by lia.
      replace (s * (2 - 1) + 1)%nat with (S s) in H by lia. rewrite H by lia.
      cbn [nth]. f_equal. lia.
Qed.

(** the uniform mesh with LGR points *)
Section Lgr.
Variables (n : nat) (pts : list R).
Hypothesis n1 : (1 <= n)%nat.
Hypothesis nb : INR n <= two50.
Hypothesis m2 : (2 <= List.length pts)%nat.
Let m := List.length pts.
Hypothesis q0 : nth 0 pts 0 = 0.
Hypothesis q1 : nth (m - 1) pts 0 = 1.
Hypothesis qm : nondecreasing pts.
Let p := fl_linspace01 n.
Let mesh := map (fl_interval_mesh pts p) (seq 0 n).

Lemma q01 : forall j, (j < m)%nat -> 0 <= nth j pts 0 <= 1.
Proof.
  intros j Hj. pose proof (qm 0%nat j ltac:(fold m; lia)) as A. pose proof (qm j (m - 1)%nat ltac:(fold m; lia)) as B.
  rewrite q0 in A. rewrite q1 in B. lra.
Qed.
Lemma lrow : forall i j, (i < n)%nat -> (j < m)%nat ->
  nth j (nth i mesh []) 0 = rowpt (upt n i) (upt n (S i)) (nth j pts 0).
Proof.
  intros i j Hi Hj. unfold mesh. rewrite rows_nth by assumption.
  unfold p. rewrite !upt_nth by (assumption || lia). do 2 f_equal. lia.
Qed.

Lemma lgr_flat : exists fm, flat_mesh mesh = Ok fm /\ List.length fm = (n * (m - 1) + 1)%nat /\
  forall i j, (i < n)%nat -> (j < m)%nat -> nth (i * (m - 1) + j) fm 0 = rowpt (upt n i) (upt n (S i)) (nth j pts 0).
Proof.
  destruct (flat_nth mesh n m) as [fm [E [L [Z H]]]].
  - apply rows_len; assumption.
  - exact n1.
  - exact m2.
  - apply rows_forall; assumption.
  - exists fm. split; [exact E|]. split; [exact L|].
    intros i j Hi Hj. destruct (Nat.eq_dec j 0) as [->|J0].
    + destruct i as [|i].
      * change (0 * (m - 1) + 0)%nat with 0%nat. rewrite Z. apply lrow; lia.
      * replace (S i * (m - 1) + 0)%nat with (i * (m - 1) + (m - 1))%nat by lia.
        rewrite H by (unfold m in *; lia). rewrite lrow by (unfold m in *; lia).
        rewrite q0, q1, row_0 by apply upt_fmt. rewrite row_1. apply upt_join; [exact n1|exact nb|lia].
    + rewrite H by lia. apply lrow; assumption.
Qed.

Lemma lgr_err : forall i j, (i < n)%nat -> (j < m)%nat ->
  exists y, Rabs (y - (upt n i + nth j pts 0 * fsub (upt n (S i)) (upt n i))) <= uro * fsub (upt n (S i)) (upt n i) + uro / 1000000 /\
            0 <= y <= 1 + 20 * uro /\ Rabs (rowpt (upt n i) (upt n (S i)) (nth j pts 0) - y) <= uro * y.
Proof.
  intros i j Hi Hj. pose proof uro_pos as U.
  destruct (upt_len_err n n1 nb i Hi) as [L0 L1].
  pose proof (upt_01 n n1 nb i ltac:(lia)) as A. pose proof (upt_01 n n1 nb (S i) ltac:(lia)) as B.
  assert (LL : fsub (upt n (S i)) (upt n i) <= 1).
  { replace 1 with (fl 1) by (apply fl_id, fmt_1). unfold fsub. apply fl_le. lra. }
  destruct (fsub_rel (upt n (S i)) (upt n i) (upt_fmt n _) (upt_fmt n _)) as [e [He E]].
  assert (SUM : upt n i + fsub (upt n (S i)) (upt n i) <= 1 + 2 * uro).
  { rewrite E. apply Rabs_def2b in He. pose proof (upt_step n n1 nb i Hi). nra. }
  pose proof (q01 j Hj) as Q.
  destruct (row_err (upt n i) (upt n (S i)) (nth j pts 0)) as [y [Y1 [Y2 Y3]]]; try lra; [apply upt_fmt|].
  exists y. split; [exact Y1|]. split; [|exact Y3]. split; [lra|].
  apply Rabs_def2b in Y1. nra.
Qed.

Lemma lgr_close : forall i j, (i < n)%nat -> (j < m)%nat ->
  Rabs (rowpt (upt n i) (upt n (S i)) (nth j pts 0) - (INR i + nth j pts 0) / INR n) <= 12 * uro.
Proof.
  intros i j Hi Hj. pose proof uro_pos as U.
  destruct (lgr_err i j Hi Hj) as [y [Y1 [Y2 Y3]]].
  destruct (upt_len_err n n1 nb i Hi) as [L0 L1].
  pose proof (upt_rel n n1 nb i ltac:(lia)) as A. pose proof (q01 j Hj) as Q.
  pose proof (INR_pos1 n n1) as N1.
  assert (Qi : 0 <= INR i / INR n <= 1).
  { split.
    - apply Rmult_le_pos; [apply pos_INR|left; apply Rinv_0_lt_compat; lra].
    - apply Rmult_le_reg_r with (INR n); [lra|]. unfold Rdiv. rewrite Rmult_assoc, Rinv_l, Rmult_1_r, Rmult_1_l by lra.
      apply le_INR. lia. }
  pose proof (uh_inv n n1 nb) as V. unfold two50 in V.
  assert (LL : fsub (upt n (S i)) (upt n i) <= 1).
  { pose proof (upt_01 n n1 nb i ltac:(lia)). pose proof (upt_01 n n1 nb (S i) ltac:(lia)).
    replace 1 with (fl 1) by (apply fl_id, fmt_1). unfold fsub. apply fl_le. lra. }
  replace ((INR i + nth j pts 0) / INR n) with (INR i / INR n + nth j pts 0 * / INR n) by (unfold Rdiv; ring).
  set (q := nth j pts 0) in *. set (l := fsub (upt n (S i)) (upt n i)) in *. set (g := / INR n) in *.
  set (r := INR i / INR n) in *. set (a := upt n i) in *. set (z := rowpt a (upt n (S i)) q) in *.
  clearbody q l g r a z.
  assert (A' : - (3 * uro) <= a - r <= 3 * uro).
  { apply Rabs_def2b in A. assert ((2 * uro + uro * uro) * r <= 3 * uro); [|lra].
    assert ((2 * uro + uro * uro) * r <= (2 * uro + uro * uro) * 1) by (apply Rmult_le_compat_l; nra). nra. }
  assert (L' : - (6 * uro) <= q * l - q * g <= 6 * uro).
  { apply Rabs_def2b in L1. replace (q * l - q * g) with (q * (l - g)) by ring. nra. }
  apply Rabs_def2b in Y1. apply Rabs_def2b in Y3.
  assert (uro * l <= uro * 1) by (apply Rmult_le_compat_l; lra).
  assert (uro * y <= uro * (1 + 20 * uro)) by (apply Rmult_le_compat_l; lra).
  assert (uro * (1 + 20 * uro) <= uro * (1 + / 1000)) by (apply Rmult_le_compat_l; lra).
  apply Rabs_le. lra.
Qed.

Lemma lgr_strict : (forall j, (S j < m)%nat -> 16 * uro * INR n <= nth (S j) pts 0 - nth j pts 0) ->
  forall i j, (i < n)%nat -> (S j < m)%nat ->
  rowpt (upt n i) (upt n (S i)) (nth j pts 0) < rowpt (upt n i) (upt n (S i)) (nth (S j) pts 0).
Proof.
  intros G i j Hi Hj. pose proof uro_pos as U. specialize (G j Hj).
  destruct (lgr_err i j Hi ltac:(lia)) as [y [Y1 [Y2 Y3]]].
  destruct (lgr_err i (S j) Hi Hj) as [w [W1 [W2 W3]]].
  destruct (upt_len_err n n1 nb i Hi) as [L0 L1].
  pose proof (q01 j ltac:(lia)) as Q. pose proof (q01 (S j) Hj) as Q'.
  pose proof (INR_pos1 n n1) as N1. pose proof (uh_inv n n1 nb) as V. unfold two50 in V.
  assert (LL : fsub (upt n (S i)) (upt n i) <= 1).
  { pose proof (upt_01 n n1 nb i ltac:(lia)). pose proof (upt_01 n n1 nb (S i) ltac:(lia)).
    replace 1 with (fl 1) by (apply fl_id, fmt_1). unfold fsub. apply fl_le. lra. }
  set (q := nth j pts 0) in *. set (q' := nth (S j) pts 0) in *.
  set (l := fsub (upt n (S i)) (upt n i)) in *. set (a := upt n i) in *.
  assert (G2 : 16 * uro <= (q' - q) * / INR n).
  { apply Rmult_le_reg_r with (INR n); [lra|]. replace ((q' - q) * / INR n * INR n) with (q' - q) by (field; lra). exact G. }
  set (g := / INR n) in *. set (z := rowpt a (upt n (S i)) q) in *. set (z' := rowpt a (upt n (S i)) q') in *.
  clearbody q q' l g a z z'.
  apply Rabs_def2b in L1. apply Rabs_def2b in Y1. apply Rabs_def2b in Y3. apply Rabs_def2b in W1. apply Rabs_def2b in W3.
  assert (QQ : 0 <= q' - q).
  { apply Rnot_lt_le. intros C. assert ((q' - q) * g < 0); [|lra].
    replace 0 with (0 * g) by ring. apply Rmult_lt_compat_r; lra. }
  assert (10 * uro <= (q' - q) * l).
  { assert ((q' - q) * (- (6 * uro)) <= (q' - q) * (l - g)) by (apply Rmult_le_compat_l; lra).
    assert ((q' - q) * (6 * uro) <= 1 * (6 * uro)) by (apply Rmult_le_compat_r; lra). lra. }
  assert (uro * l <= uro * 1) by (apply Rmult_le_compat_l; lra).
  assert (uro * y <= uro * (1 + 20 * uro)) by (apply Rmult_le_compat_l; lra).
  assert (uro * w <= uro * (1 + 20 * uro)) by (apply Rmult_le_compat_l; lra).
  assert (uro * (1 + 20 * uro) <= uro * (1 + / 1000)) by (apply Rmult_le_compat_l; lra).
  lra.
Qed.
End Lgr.
