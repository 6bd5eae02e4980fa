(** C63: the mesh in double precision. *)
From Verif Require Import Base RBase CollocModel CollocProofs MeshModel MeshProofs FloatModel FloatSpec FloatProofs FloatProofs2 FloatProofs3 FloatProofs4 FloatProofs5.
From Flocq Require Import Core.
From Coq Require Import Lra Lia.
Open Scope R_scope.
Local Existing Instance prec53.
Local Existing Instance dexp_valid.
Local Existing Instance dexp_mono.
Local Existing Instance dexp_ne.

(** The four operations of the model are those of IEEE-754: the double nearest to the exact result,
    and of two equally near ones the one with the even significand. *)
Theorem C63_arithmetic : forall x,
  nearest x (fl x) /\ (double x -> fl x = x) /\
  (forall y, nearest x y -> y <> fl x ->
     exists m e, fl x = IZR (2 * m) * pow2 e /\ (Z.abs (2 * m) < 2 ^ 53)%Z /\ (-1074 <= e)%Z) /\
  (forall a b, fadd a b = fl (a + b) /\ fsub a b = fl (a - b) /\ fmul a b = fl (a * b) /\ fdiv a b = fl (a / b)).
Proof.
  intros x. split; [apply fl_nearest|]. split; [intros D; apply fl_id, double_fmt, D|]. split; [|intros; repeat split].
  intros y [Dy Ny] N.
  destruct (round_NE_pt radix2 dexp x) as [HN [HE | HU]].
  - destruct HE as [[m e] [E [C Ev]]]. cbn [Fnum] in Ev.
    fold (fl x) in E. exists (Z.div2 m), e.
    assert (E2 : (2 * Z.div2 m)%Z = m).
    { pose proof (Z.div2_odd m) as O. rewrite <- Z.negb_even, Ev in O. cbn [negb Z.b2z] in O. lia. }
    rewrite E2. unfold F2R in E. cbn [Fnum Fexp] in E. rewrite pow2_bpow.
    split; [exact E|].
    unfold canonical in C. cbn [Fexp] in C. unfold cexp, dexp, FLT_exp in C.
    split; [|lia].
    assert (H : Rabs (F2R (Float radix2 m e)) < bpow radix2 (mag radix2 (F2R (Float radix2 m e)))) by apply bpow_mag_gt.
    set (g := (mag radix2 (F2R (Float radix2 m e)) : BinInt.Z)) in *. unfold F2R in H. cbn [Fnum Fexp] in H.
    rewrite Rabs_mult, (Rabs_pos_eq (bpow radix2 e)) in H by apply bpow_ge_0.
    apply lt_IZR. rewrite abs_IZR.
    apply Rmult_lt_reg_r with (bpow radix2 e); [apply bpow_gt_0|].
    eapply Rlt_le_trans; [exact H|].
    replace (IZR (2 ^ 53)) with (bpow radix2 53) by (cbn; lra).
    rewrite <- bpow_plus. apply bpow_le. lia.
  - exfalso. apply N. apply HU. split; [apply double_fmt, Dy|].
    intros g Hg. apply Ny. apply double_fmt, Hg.
Qed.
Print Assumptions C63_arithmetic.

(** The checks on user-given interval points are exact although they are computed in doubles: the
    points are accepted just when there are n + 1 of them, they really increase, and the first and
    the last are really less than (the double) 1e-6 away from 0 and 1. *)
Theorem C63_check : forall n pts p, doubles p ->
  ((exists mesh, fl_make_mesh n pts (Some p) = Ok mesh) <->
   List.length p = (n + 1)%nat /\ Rabs (nth 0 p 0) < micro /\ Rabs (nth n p 0 - 1) < micro /\ increasing p) /\
  ((exists mesh, fl_make_mesh n pts (Some p) = Ok mesh) \/ fl_make_mesh n pts (Some p) = Raise ValueError) /\
  nearest (1 / 1000000) micro.
Proof.
  intros n pts p D. pose proof (fl_check_ok n p D) as H. unfold fl_make_mesh.
  destruct (fl_check_err n p) as [E|E]; rewrite E; cbn [bind].
  - split; [|split; [left; eauto|rewrite <- fl_micro; apply fl_nearest]]. split; [intros _; apply H, E|eauto].
  - split; [|split; [right; reflexivity|rewrite <- fl_micro; apply fl_nearest]]. split; [intros [m Hm]; discriminate|].
    intros A. apply H in A. rewrite E in A. discriminate.
Qed.
Print Assumptions C63_check.

Lemma two50_eq : (2 ^ 50)%R = two50.
Proof. unfold two50. simpl. lra. Qed.

(** The default mesh of a two-stage transcription, for up to 2^50 intervals: the points are doubles,
    start at 0, end at exactly 1, strictly increase, and each is within 3 roundoffs of i/n. The interval
    lengths are positive and within 6 roundoffs of 1/n. *)
Theorem C63_uniform : forall n, (1 <= n)%nat -> INR n <= 2 ^ 50 ->
  exists mesh p, fl_make_mesh n [] None = Ok mesh /\ flat_mesh mesh = Ok p /\
    List.length p = (n + 1)%nat /\ doubles p /\ nth 0 p 0 = 0 /\ nth n p 0 = 1 /\ increasing p /\
    (forall i, (i <= n)%nat -> Rabs (nth i p 0 - INR i / INR n) <= 3 * uro * (INR i / INR n)) /\
    List.length (fl_interval_lengths mesh) = n /\
    (forall i, (i < n)%nat -> 0 < nth i (fl_interval_lengths mesh) 0 /\
       Rabs (nth i (fl_interval_lengths mesh) 0 - 1 / INR n) <= 6 * uro).
Proof.
  intros n n1 nb. rewrite two50_eq in nb.
  exists (map (fl_interval_mesh [] (fl_linspace01 n)) (seq 0 n)), (fl_linspace01 n).
  pose proof (upt_len n n1 nb) as L.
  split; [reflexivity|]. split; [apply flat_two; assumption|]. split; [exact L|].
  split; [|split; [|split; [|split; [|split; [|split]]]]].
  - intros x Hx. rewrite upt_list in Hx by assumption. apply in_map_iff in Hx. destruct Hx as [i [<- _]].
    apply double_fmt, upt_fmt.
  - rewrite upt_nth by (assumption || lia). apply upt_0. exact n1.
  - rewrite upt_nth by (assumption || lia). apply upt_n.
  - intros i j Hij. rewrite L in Hij. rewrite !upt_nth by (assumption || lia). apply upt_mono; (assumption || lia).
  - intros i Hi. rewrite upt_nth by assumption. eapply Rle_trans; [apply upt_rel; assumption|].
    apply Rmult_le_compat_r; [|unfold uro; lra].
    apply Rmult_le_pos; [apply pos_INR|left; apply Rinv_0_lt_compat; pose proof (INR_pos1 n n1); lra].
  - unfold fl_interval_lengths. rewrite !map_length, seq_length. reflexivity.
  - intros i Hi. unfold fl_interval_lengths. rewrite map_map.
    rewrite (nth_map_in _ _ _ _ _ _ 0%nat) by (rewrite seq_length; lia). rewrite seq_nth by lia.
    rewrite mesh_row_nil. cbn [last hd]. rewrite !upt_nth by (assumption || lia).
    replace (0 + i + 1)%nat with (S i) by lia. replace (0 + i)%nat with i by lia.
    replace (1 / INR n) with (/ INR n) by (unfold Rdiv; ring). apply upt_len_err; assumption.
Qed.
Print Assumptions C63_uniform.

(** The default mesh with the points q_0 = 0 <= ... <= q_(m-1) = 1 of an LGR transcription, given as
    any doubles. The intervals join without a gap: each interval ends at exactly the double at which
    the next one starts. The mesh starts at 0, ends at exactly 1, never decreases, is within 12
    roundoffs of (i + q_j)/n, and strictly increases when consecutive q differ by 16 n roundoffs. *)
Theorem C63_uniform_lgr : forall n pts, (1 <= n)%nat -> INR n <= 2 ^ 50 ->
  (2 <= List.length pts)%nat -> doubles pts -> nth 0 pts 0 = 0 -> nth (List.length pts - 1) pts 0 = 1 -> nondecreasing pts ->
  let m := List.length pts in
  exists mesh fm, fl_make_mesh n pts None = Ok mesh /\ flat_mesh mesh = Ok fm /\
    List.length fm = (n * (m - 1) + 1)%nat /\ doubles fm /\ nth 0 fm 0 = 0 /\ nth (n * (m - 1)) fm 0 = 1 /\
    nondecreasing fm /\
    (forall i j, (i < n)%nat -> (j < m)%nat ->
       nth (i * (m - 1) + j) fm 0 = nth j (nth i mesh []) 0 /\
       Rabs (nth (i * (m - 1) + j) fm 0 - (INR i + nth j pts 0) / INR n) <= 12 * uro) /\
    (forall i, (S i < n)%nat -> nth (m - 1) (nth i mesh []) 0 = nth 0 (nth (S i) mesh []) 0) /\
    ((forall j, (S j < m)%nat -> 16 * uro * INR n <= nth (S j) pts 0 - nth j pts 0) -> increasing fm).
Proof.
  intros n pts n1 nb m2 D q0 q1 qm m. rewrite two50_eq in nb.
  destruct (lgr_flat n pts n1 nb m2 q0 q1) as [fm [E [L H]]]. fold m in L, H.
  exists (map (fl_interval_mesh pts (fl_linspace01 n)) (seq 0 n)), fm.
  assert (Hm : (2 <= m)%nat) by exact m2.
  assert (RW : forall i j, (i < n)%nat -> (j < m)%nat ->
     nth j (nth i (map (fl_interval_mesh pts (fl_linspace01 n)) (seq 0 n)) []) 0 = rowpt (upt n i) (upt n (S i)) (nth j pts 0)).
  { intros i j Hi Hj. apply lrow; assumption. }
  assert (E0 : nth 0 fm 0 = 0).
  { specialize (H 0%nat 0%nat ltac:(lia) ltac:(lia)). change (0 * (m - 1) + 0)%nat with 0%nat in H. rewrite H.
    rewrite q0, row_0 by apply upt_fmt. apply upt_0. exact n1. }
  split; [reflexivity|]. split; [exact E|]. split; [exact L|]. split; [|split; [|split; [|split; [|split; [|split]]]]].
  - intros x Hx. apply (In_nth _ _ 0) in Hx. destruct Hx as [s [Hs <-]].
    destruct s as [|s]; [rewrite E0; apply double_fmt, generic_format_0|].
    destruct (flat_pos n m s Hm ltac:(lia)) as [i [j [Hi [Hj [_ ->]]]]]. rewrite H by lia. apply double_fmt, row_fmt.
  - exact E0.
  - replace (n * (m - 1))%nat with ((n - 1) * (m - 1) + (m - 1))%nat by nia.
    rewrite H by lia. unfold m. rewrite q1, row_1. rewrite upt_join by (assumption || lia).
    replace (S (n - 1)) with n by lia. apply upt_n.
  - apply nondecreasing_step. intros s Hs. rewrite L in Hs.
    destruct (flat_pos n m s Hm Hs) as [i [j [Hi [Hj [E1 E2]]]]]. rewrite E2. rewrite E1 at 1. rewrite !H by lia.
    apply row_mono; [apply upt_step; assumption|]. apply qm. fold m. lia.
  - intros i j Hi Hj. rewrite RW, H by assumption. split; [reflexivity|]. apply lgr_close; assumption.
  - intros i Hi. rewrite !RW by lia. unfold m. rewrite q0, q1, row_1, row_0 by apply upt_fmt.
    apply upt_join; (assumption || lia).
  - intros G. apply increasing_step. intros s Hs. rewrite L in Hs.
    destruct (flat_pos n m s Hm Hs) as [i [j [Hi [Hj [E1 E2]]]]]. rewrite E2. rewrite E1 at 1. rewrite !H by lia.
    apply lgr_strict; try assumption. fold m. lia.
Qed.
Print Assumptions C63_uniform_lgr.

(** Accepted user-given points with a two-stage transcription: the mesh is those points, and the
    interval lengths are positive and within one roundoff (relative) of the true differences. *)
Theorem C63_user : forall n p mesh, (1 <= n)%nat -> doubles p -> fl_make_mesh n [] (Some p) = Ok mesh ->
  flat_mesh mesh = Ok p /\ List.length (fl_interval_lengths mesh) = n /\
  forall i, (i < n)%nat -> 0 < nth i (fl_interval_lengths mesh) 0 /\
    Rabs (nth i (fl_interval_lengths mesh) 0 - (nth (i + 1) p 0 - nth i p 0)) <= uro * (nth (i + 1) p 0 - nth i p 0).
Proof.
  intros n p mesh n1 D E.
  destruct (C63_check n [] p D) as [H _]. destruct (proj1 H (ex_intro _ mesh E)) as [L [_ [_ I]]]. clear H.
  unfold fl_make_mesh in E. destruct (fl_check n p) as [u0|u0]; cbn [bind] in E; [|discriminate].
  assert (M : mesh = map (fl_interval_mesh [] p) (seq 0 n)) by congruence. subst mesh.
  split; [apply flat_two; assumption|]. unfold fl_interval_lengths.
  split; [rewrite !map_length, seq_length; reflexivity|].
  intros i Hi. rewrite map_map. rewrite (nth_map_in _ _ _ _ _ _ 0%nat) by (rewrite seq_length; lia). rewrite seq_nth by lia.
  rewrite mesh_row_nil. cbn [last hd]. replace (0 + i)%nat with i by lia.
  assert (F : forall k, (k <= n)%nat -> fmt (nth k p 0)) by (intros k Hk; apply double_fmt, D, nth_In; lia).
  assert (LT : nth i p 0 < nth (i + 1) p 0) by (apply I; lia).
  split; [apply fsub_pos; try apply F; (lia || exact LT)|].
  destruct (fsub_rel (nth (i + 1) p 0) (nth i p 0)) as [e [He E']]; try (apply F; lia). rewrite E'.
  replace ((nth (i + 1) p 0 - nth i p 0) * (1 + e) - (nth (i + 1) p 0 - nth i p 0)) with ((nth (i + 1) p 0 - nth i p 0) * e) by ring.
  rewrite Rabs_mult, Rabs_pos_eq by lra. rewrite Rmult_comm. apply Rmult_le_compat_r; [lra|exact He].
Qed.
Print Assumptions C63_user.

(** Accepted user-given points with LGR points: each interval starts at exactly its point and never
    decreases; it ends within 3 roundoffs of the next point, and exactly there when the interval starts
    at 0, or at most doubles its (nonnegative) start, or ends at 1 (from a nonnegative start). *)
Theorem C63_user_lgr : forall n pts p mesh, (1 <= n)%nat -> doubles p -> (2 <= List.length pts)%nat ->
  nth 0 pts 0 = 0 -> nth (List.length pts - 1) pts 0 = 1 -> nondecreasing pts ->
  fl_make_mesh n pts (Some p) = Ok mesh ->
  List.length mesh = n /\
  forall i, (i < n)%nat ->
    let row := nth i mesh [] in let a := nth i p 0 in let b := nth (i + 1) p 0 in
    List.length row = List.length pts /\ doubles row /\ nondecreasing row /\ nth 0 row 0 = a /\
    Rabs (nth (List.length pts - 1) row 0 - b) <= 3 * uro /\
    (0 <= a -> a = 0 \/ b <= 2 * a \/ b = 1 -> nth (List.length pts - 1) row 0 = b).
Proof.
  intros n pts p mesh n1 D m2 q0 q1 qm E.
  destruct (C63_check n pts p D) as [H _]. destruct (proj1 H (ex_intro _ mesh E)) as [L [P0 [P1 I]]]. clear H.
  unfold fl_make_mesh in E. destruct (fl_check n p) as [u0|u0]; cbn [bind] in E; [|discriminate].
  assert (M : mesh = map (fl_interval_mesh pts p) (seq 0 n)) by congruence. subst mesh.
  split; [apply rows_len; assumption|]. intros i Hi row a b.
  assert (R : row = map (rowpt a b) pts) by (apply rows_row; assumption).
  assert (Q0 : nth 0 row 0 = rowpt a b 0).
  { rewrite R, (nth_map_in _ _ _ _ _ _ 0) by lia. rewrite q0. reflexivity. }
  assert (Q1 : nth (List.length pts - 1) row 0 = rowpt a b 1).
  { rewrite R, (nth_map_in _ _ _ _ _ _ 0) by lia. rewrite q1. reflexivity. }
  assert (F : forall k, (k <= n)%nat -> fmt (nth k p 0)) by (intros k Hk; apply double_fmt, D, nth_In; lia).
  assert (LT : a < b) by (apply I; lia).
  assert (Fa : fmt a) by (apply F; lia). assert (Fb : fmt b) by (apply F; lia).
  pose proof micro_small as MS. pose proof uro_pos as U.
  assert (RG : forall k, (k <= n)%nat -> - micro <= nth k p 0 <= 1 + micro).
  { intros k Hk. apply Rabs_def2 in P0. apply Rabs_def2 in P1. split.
    - destruct (Nat.eq_dec k 0) as [->|]; [lra|]. pose proof (I 0%nat k ltac:(lia)). lra.
    - destruct (Nat.eq_dec k n) as [->|]; [lra|]. pose proof (I k n ltac:(lia)). lra. }
  pose proof (RG i ltac:(lia)) as Ra. pose proof (RG (i + 1)%nat ltac:(lia)) as Rb. fold a in Ra. fold b in Rb.
  split; [rewrite R; apply map_length|]. split.
  { intros x Hx. rewrite R in Hx. apply in_map_iff in Hx. destruct Hx as [q [<- _]]. apply double_fmt, row_fmt. }
  split.
  { intros j k Hjk. rewrite R in *. rewrite map_length in Hjk. rewrite !(nth_map_in _ _ _ _ _ _ 0) by lia.
    apply row_mono; [exact LT|]. apply qm. lia. }
  split; [rewrite Q0; apply row_0, Fa|]. rewrite Q1, row_1. split.
  - eapply Rle_trans; [apply join_err; try assumption; apply Rabs_le; lra|].
    assert (Rabs b <= 1 + micro) by (apply Rabs_le; lra).
    assert (uro * Rabs b <= uro * (1 + micro)) by (apply Rmult_le_compat_l; lra).
    assert (uro * (b - a) * (1 + uro) <= uro * (1 + 2 * micro) * (1 + uro)).
    { apply Rmult_le_compat_r; [lra|]. apply Rmult_le_compat_l; lra. }
    assert (uro * (1 + 2 * micro) * (1 + uro) <= uro * (1 + / 1000)).
    { rewrite Rmult_assoc. apply Rmult_le_compat_l; [lra|].
      apply Rle_trans with ((1 + 2 * / 1000000) * (1 + uro)); [apply Rmult_le_compat_r; lra|]. lra. }
    assert (uro * (1 + micro) <= uro * (1 + / 1000)) by (apply Rmult_le_compat_l; lra). lra.
  - intros A0 [C | [C | C]].
    + apply join_half; auto.
    + apply join_half; auto.
    + rewrite C in *. apply join_one; [exact Fa|lra].
Qed.
Print Assumptions C63_user_lgr.

(** The mesh for a given scale, [get_mesh_from_scale], on any mesh that never decreases: it never
    decreases; the scale 1 changes nothing; the point 1 becomes exactly the scale. *)
Theorem C63_scaled_mesh : forall mesh fm s, flat_mesh mesh = Ok fm -> doubles fm -> nondecreasing fm -> double s -> 0 < s ->
  exists sm, fl_mesh_from_scale mesh s = Ok sm /\ List.length sm = List.length fm /\ nondecreasing sm /\
    (forall k, (k < List.length fm)%nat -> nth k fm 0 = 0 -> nth k sm 0 = 0) /\
    (forall k, (k < List.length fm)%nat -> nth k fm 0 = 1 -> nth k sm 0 = s) /\ (s = 1 -> sm = fm).
Proof.
  intros mesh fm s E D N Ds S0. exists (map (fun v => fmul v s) fm). unfold fl_mesh_from_scale. rewrite E. cbn [fmap].
  split; [reflexivity|]. split; [apply map_length|].
  split; [|split; [|split]].
  - intros i j Hij. rewrite map_length in Hij. rewrite !(nth_map_in _ _ _ _ _ _ 0) by lia. apply fmul_mono; [exact S0|]. apply N. lia.
  - intros k Hk Z. rewrite (nth_map_in _ _ _ _ _ _ 0) by lia. rewrite Z. apply fmul_0.
  - intros k Hk Z. rewrite (nth_map_in _ _ _ _ _ _ 0) by lia. rewrite Z. unfold fmul. rewrite Rmult_1_l.
    apply fl_id, double_fmt, Ds.
  - intros ->. rewrite <- map_id. apply map_ext_in. intros v Hv. unfold fmul. rewrite Rmult_1_r.
    apply fl_id, double_fmt, D, Hv.
Qed.
Print Assumptions C63_scaled_mesh.

(** The default mesh times a scale that is not extremely small: strictly increasing, from 0 to exactly
    the scale, each point within 4 roundoffs (relative) of scale * i/n. *)
Theorem C63_scaled_uniform : forall n s, (1 <= n)%nat -> INR n <= 2 ^ 50 -> double s -> pow2 (-900) <= s ->
  exists mesh sm, fl_make_mesh n [] None = Ok mesh /\ fl_mesh_from_scale mesh s = Ok sm /\
    List.length sm = (n + 1)%nat /\ doubles sm /\ increasing sm /\ nth 0 sm 0 = 0 /\ nth n sm 0 = s /\
    forall i, (i <= n)%nat -> Rabs (nth i sm 0 - s * (INR i / INR n)) <= 4 * uro * (s * (INR i / INR n)).
Proof.
  intros n s n1 nb Ds Sb. rewrite two50_eq in nb. apply double_fmt in Ds.
  exists (map (fl_interval_mesh [] (fl_linspace01 n)) (seq 0 n)), (map (fun v => fmul v s) (fl_linspace01 n)).
  pose proof (upt_len n n1 nb) as L.
  split; [reflexivity|]. split; [unfold fl_mesh_from_scale; rewrite flat_two by assumption; reflexivity|].
  assert (NT : forall i, (i <= n)%nat -> nth i (map (fun v => fmul v s) (fl_linspace01 n)) 0 = fmul (upt n i) s).
  { intros i Hi. rewrite (nth_map_in _ _ _ _ _ _ 0) by lia. rewrite upt_nth by assumption. reflexivity. }
  split; [rewrite map_length; exact L|]. split; [|split; [|split; [|split]]].
  - intros x Hx. apply in_map_iff in Hx. destruct Hx as [v [<- _]]. apply fl_double.
  - apply increasing_step. rewrite map_length, L. intros i Hi. rewrite !NT by lia. apply scaled_step; (assumption || lia).
  - rewrite NT by lia. apply scaled_0. exact n1.
  - rewrite NT by lia. apply scaled_n. exact Ds.
  - intros i Hi. rewrite NT by exact Hi. eapply Rle_trans; [apply scaled_rel; assumption|].
    apply Rmult_le_compat_r; [|unfold uro; lra].
    apply Rmult_le_pos; [pose proof (s_pos s Sb); lra|].
    apply Rmult_le_pos; [apply pos_INR|left; apply Rinv_0_lt_compat; pose proof (INR_pos1 n n1); lra].
Qed.
Print Assumptions C63_scaled_uniform.
