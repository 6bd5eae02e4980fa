(** C57: the rest of the CasADi array layer: element-wise functions, products, norms. *)
From Verif Require Import Base RBase CollocProofs OcpProofs2 CasModel CasSpec LnpModel LnpSpec LnpProofs.
From Coq Require Import Lra.

(** ** Element-wise functions agree with numpy's broadcasting on equal shapes, scalars, and a column with a matrix *)
Theorem C57_elementwise : forall x y : arr, agreeing (dm x) (dm y) ->
  (exists t, lnp_minimum x y = Ok t /\ np_binary Rmin (dm x) (dm y) t) /\ (exists t, lnp_maximum x y = Ok t /\ np_binary Rmax (dm x) (dm y) t) /\
  (exists t, lnp_logical_and x y = Ok t /\ np_binary (fun a b => if Req_EM_T a 0 then 0 else if Req_EM_T b 0 then 0 else 1) (dm x) (dm y) t) /\
  (exists t, lnp_logical_or x y = Ok t /\ np_binary (fun a b => if Req_EM_T a 0 then (if Req_EM_T b 0 then 0 else 1) else 1) (dm x) (dm y) t).
Proof.
  intros x y H. split; [|split; [|split]]; [now apply cbin_agree|now apply cbin_agree| |].
  - destruct (cbin_agree (fun a b => of_bool (truth a && truth b)) _ _ H) as (t & E & B1 & B2 & B3). exists t. split; [exact E|]. split; [exact B1|]. split; [exact B2|].
    intros i j Hi Hj. rewrite B3 by assumption. unfold truth. repeat destruct Req_EM_T; reflexivity.
  - destruct (cbin_agree (fun a b => of_bool (truth a || truth b)) _ _ H) as (t & E & B1 & B2 & B3). exists t. split; [exact E|]. split; [exact B1|]. split; [exact B2|].
    intros i j Hi Hj. rewrite B3 by assumption. unfold truth. repeat destruct Req_EM_T; reflexivity.
Qed.
Print Assumptions C57_elementwise.
(** numpy broadcasts a row against a matrix, the CasADi layer raises; and CasADi repeats blocks where numpy raises *)
Theorem C57_broadcast_refuted : forall x y r c, (2 <= r)%nat -> (2 <= c)%nat -> cr x = 1%nat -> cc x = c -> cr y = r -> cc y = c ->
  (exists t, np_binary Rmin x y t) /\ lnp_minimum (CasM x) (CasM y) = Raise RuntimeError /\
  (exists z w t, lnp_minimum (CasM z) (CasM w) = Ok t /\ cr z = r /\ cc z = c /\ cr w = r /\ cc w = (2 * c)%nat /\ forall t', ~ np_binary Rmin z w t').
Proof.
  intros x y r c Hr Hc H1 H2 H3 H4. split; [|split].
  - exists {| cr := r; cc := c; ce := fun i j => Rmin (bentry x i j) (bentry y i j) |}. unfold np_binary, bdim. cbn [cr cc ce]. split; [lia|]. split; [lia|]. reflexivity.
  - unfold lnp_minimum, cbin, is_scalar. cbn [dm]. rewrite H1, H2, H3, H4. replace (Nat.eqb c 1) with false by (symmetry; apply Nat.eqb_neq; lia). rewrite !andb_false_r.
    replace (Nat.eqb 1 r) with false by (symmetry; apply Nat.eqb_neq; lia). reflexivity.
  - exists {| cr := r; cc := c; ce := fun _ _ => 0 |}, {| cr := r; cc := 2 * c; ce := fun _ _ => 0 |}. unfold lnp_minimum, cbin, is_scalar. cbn [dm cr cc].
    replace (Nat.eqb c 1) with false by (symmetry; apply Nat.eqb_neq; lia). replace (Nat.eqb (2 * c) 1) with false by (symmetry; apply Nat.eqb_neq; lia). rewrite !andb_false_r, Nat.eqb_refl.
    replace (Nat.eqb c (2 * c)) with false by (symmetry; apply Nat.eqb_neq; lia). replace (Nat.ltb 0 c) with true by (symmetry; apply Nat.ltb_lt; lia). replace (Nat.ltb 0 (2 * c)) with true by (symmetry; apply Nat.ltb_lt; lia). cbn [andb].
    rewrite (Nat.mod_small c (2 * c)) by lia. replace (Nat.eqb c 0) with false by (symmetry; apply Nat.eqb_neq; lia). rewrite Nat.mod_mul by lia. cbn [Nat.eqb].
    eexists. split; [reflexivity|]. repeat (split; [reflexivity|]). intros t' (_ & B & _). unfold bdim in B. cbn [cc] in B. lia.
Qed.
Print Assumptions C57_broadcast_refuted.
Theorem C57_not_abs : forall x, is_mat (lnp_logical_not x) (cr x) (cc x) (fun i j => if Req_EM_T (ce x i j) 0 then 1 else 0) /\ is_mat (lnp_abs x) (cr x) (cc x) (fun i j => Rabs (ce x i j)).
Proof. intro x. unfold is_mat. repeat split. intros i j _ _. unfold lnp_logical_not, cmap1, truth. cbn [ce]. destruct Req_EM_T; reflexivity. Qed.
Print Assumptions C57_not_abs.
(** all and any of a matrix of truth values *)
Theorem C57_all_any : forall x, (forall i j, (i < cr x)%nat -> (j < cc x)%nat -> ce x i j = 0 \/ ce x i j = 1) ->
  is_mat (lnp_all x) 1 1 (fun _ _ => ce (lnp_all x) 0 0) /\ is_mat (lnp_any x) 1 1 (fun _ _ => ce (lnp_any x) 0 0) /\
  (ce (lnp_all x) 0 0 = 1 <-> forall i j, (i < cr x)%nat -> (j < cc x)%nat -> ce x i j <> 0) /\ (ce (lnp_all x) 0 0 = 1 \/ ce (lnp_all x) 0 0 = 0) /\
  (ce (lnp_any x) 0 0 = 1 <-> exists i j, (i < cr x)%nat /\ (j < cc x)%nat /\ ce x i j <> 0) /\ (ce (lnp_any x) 0 0 = 1 \/ ce (lnp_any x) 0 0 = 0).
Proof.
  intros x H. assert (forall b, of_bool b = 1 <-> b = true) as OB by (intros [|]; cbn; split; intro; try reflexivity; try lra; discriminate).
  assert (forall b, of_bool b = 1 \/ of_bool b = 0) as OO by (intros [|]; cbn; auto).
  assert (forall a, is_one a = true <-> a = 1) as IO by (intro a; unfold is_one; destruct Req_EM_T; split; intro; try assumption; try reflexivity; try discriminate; contradiction).
  split; [unfold is_mat; cbn; auto|]. split; [unfold is_mat; cbn; auto|]. cbn [lnp_all lnp_any cscalar ce]. split; [|split; [apply OO|split; [|apply OO]]]; rewrite OB, ?forallb_forall, ?existsb_exists.
  - split.
    + intros K i j Hi Hj. specialize (K (ce x i j)). rewrite IO in K. rewrite K; [lra|]. apply in_entries. eauto.
    + intros K a Ha. apply in_entries in Ha. destruct Ha as (i & j & Hi & Hj & ->). apply IO. specialize (K i j Hi Hj). destruct (H i j Hi Hj); [contradiction|assumption].
  - split.
    + intros (a & Ha & K). apply in_entries in Ha. destruct Ha as (i & j & Hi & Hj & ->). apply IO in K. exists i, j. rewrite K. repeat split; auto; lra.
    + intros (i & j & Hi & Hj & K). exists (ce x i j). split; [apply in_entries; eauto|]. apply IO. destruct (H i j Hi Hj); [contradiction|assumption].
Qed.
Print Assumptions C57_all_any.
(** where: each argument has the shape r x k or is a scalar *)
Theorem C57_where : forall c t f r k, fits (dm c) r k -> fits (dm t) r k -> fits (dm f) r k -> ((cr (dm c) = r /\ cc (dm c) = k) \/ (cr (dm t) = r /\ cc (dm t) = k) \/ (cr (dm f) = r /\ cc (dm f) = k)) ->
  exists z, lnp_where c t f = Ok z /\ is_mat z r k (fun i j => if Req_EM_T (bentry (dm c) i j) 0 then bentry (dm f) i j else bentry (dm t) i j).
Proof. exact where_ok. Qed.
Print Assumptions C57_where.

(** ** dot and inner: the inner product of vectors; on matrices the sum of the entry products, which is not what numpy computes *)
Theorem C57_dot : forall x y n, cr (dm x) = n -> cc (dm x) = 1%nat -> cr (dm y) = n -> cc (dm y) = 1%nat ->
  exists t, lnp_dot x y = Ok t /\ lnp_inner x y = Ok t /\ is_mat t 1 1 (fun _ _ => rsum (map (fun i => ce (dm x) i 0 * ce (dm y) i 0) (seq 0 n))).
Proof.
  intros x y n H1 H2 H3 H4. eexists. unfold lnp_dot, lnp_inner. rewrite dot_ok by congruence. split; [reflexivity|]. split; [reflexivity|]. rewrite H1, H2. split; [reflexivity|]. split; [reflexivity|].
  intros i j _ _. cbn. ring.
Qed.
Print Assumptions C57_dot.
Theorem C57_dot_rejects : forall x y, cr (dm x) <> cr (dm y) \/ cc (dm x) <> cc (dm y) -> lnp_dot x y = Raise RuntimeError /\ lnp_inner x y = Raise RuntimeError.
Proof.
  intros x y H. unfold lnp_dot, lnp_inner, cas_dot. destruct (Nat.eqb_spec (cr (dm x)) (cr (dm y))), (Nat.eqb_spec (cc (dm x)) (cc (dm y))); cbn [andb]; try (split; reflexivity). tauto.
Qed.
Print Assumptions C57_dot_rejects.
Theorem C57_dot_refuted : forall x y n, (2 <= n)%nat -> cr x = n -> cc x = n -> cr y = n -> cc y = n ->
  exists t, lnp_dot (CasM x) (CasM y) = Ok t /\ cr t = 1%nat /\ cc t = 1%nat /\
  forall m, is_mat m n n (fun i j => rsum (map (fun k => ce x i k * ce y k j) (seq 0 n))) -> cr m <> cr t.
Proof.
  intros x y n Hn H1 H2 H3 H4. eexists. unfold lnp_dot. cbn [dm]. rewrite dot_ok by congruence. split; [reflexivity|]. split; [reflexivity|]. split; [reflexivity|]. intros m (Hm & _). cbn. lia.
Qed.
Print Assumptions C57_dot_refuted.
(** ** outer product of two vectors *)
Theorem C57_outer : forall x y n m, cr (dm x) = n -> cc (dm x) = 1%nat -> cr (dm y) = m -> cc (dm y) = 1%nat ->
  exists t, lnp_outer x y = Ok t /\ is_mat t n m (fun i j => ce (dm x) i 0 * ce (dm y) j 0).
Proof.
  intros x y n m H1 H2 H3 H4. unfold lnp_outer, mtimes. destruct (is_scalar (dm x) || is_scalar (ctrans (dm y)))%bool eqn:E.
  - destruct (cbin_agree Rmult (dm x) (ctrans (dm y))) as (t & Et & B1 & B2 & B3). { apply orb_prop in E. rewrite !scalar_iff in E. unfold agreeing. tauto. }
    exists t. split; [exact Et|]. unfold bdim in *. cbn [ctrans cr cc] in *. apply orb_prop in E. rewrite !scalar_iff in E. unfold one in E. cbn [ctrans cr cc] in E. split; [lia|]. split; [lia|].
    intros i j Hi Hj. rewrite B3 by lia. unfold bentry. cbn [ctrans cr cc ce]. rewrite H2, H4. cbn [Nat.eqb]. destruct (Nat.eqb_spec (cr (dm x)) 1), (Nat.eqb_spec (cr (dm y)) 1); f_equal; f_equal; lia.
  - cbn [ctrans cr cc]. rewrite H2, H4. cbn [Nat.eqb]. eexists. split; [reflexivity|]. split; [exact H1|]. split; [exact H3|]. intros i j Hi Hj. cbn. ring.
Qed.
Print Assumptions C57_outer.
(** two rows give their inner product, where numpy gives an n x n matrix *)
Theorem C57_outer_refuted : forall x y n, (2 <= n)%nat -> cr x = 1%nat -> cc x = n -> cr y = 1%nat -> cc y = n -> exists t, lnp_outer (CasM x) (CasM y) = Ok t /\ cr t = 1%nat /\ cc t = 1%nat.
Proof.
  intros x y n Hn H1 H2 H3 H4. unfold lnp_outer, mtimes, is_scalar. cbn [dm ctrans cr cc]. rewrite H1, H2, H3, H4. replace (Nat.eqb n 1) with false by (symmetry; apply Nat.eqb_neq; lia). cbn [andb orb Nat.eqb]. rewrite Nat.eqb_refl.
  eexists. split; [reflexivity|]. split; reflexivity.
Qed.
Print Assumptions C57_outer_refuted.

(** ** cross: vectors (3 x 1, default axes), the rows of n x 3 matrices (axis 1, -1 or the default), the columns of 3 x n matrices (axis 0) *)
Lemma cross_rows_entry : forall a b i j, (i < 3)%nat -> ce (cross_rows a b) i j = cross_entry (fun k => ce a k j) (fun k => ce b k j) i.
Proof. intros a b [|[|[|i]]] j Hi; try lia; reflexivity. Qed.
Lemma along_m1 : forall x, along (-1) x = Ok (ctrans x). Proof. reflexivity. Qed.
Lemma along_1 : forall x, along 1 x = Ok (ctrans x). Proof. reflexivity. Qed.
Lemma along_0 : forall x, along 0 x = Ok x. Proof. reflexivity. Qed.
Theorem C57_cross_vectors : forall a b, cr (dm a) = 3%nat -> cc (dm a) = 1%nat -> cr (dm b) = 3%nat -> cc (dm b) = 1%nat ->
  exists c, lnp_cross a b (-1) (-1) (-1) None = Ok c /\ is_mat c 3 1 (fun i _ => cross_entry (fun k => ce (dm a) k 0) (fun k => ce (dm b) k 0) i).
Proof.
  intros a b H1 H2 H3 H4. unfold lnp_cross. rewrite !along_m1. cbn [bind]. unfold cas_cross. cbn [ctrans cr cc]. rewrite H1, H2, H3, H4. cbn [Nat.eqb andb negb bind].
  rewrite along_m1. eexists. split; [reflexivity|]. split; [reflexivity|]. split; [exact H2|]. intros i j Hi Hj. assert (j = 0)%nat as -> by lia. cbn [ctrans ce]. now rewrite cross_rows_entry.
Qed.
Print Assumptions C57_cross_vectors.
Theorem C57_cross_rows : forall a b n axisa axisb axisc axis, cr (dm a) = n -> cc (dm a) = 3%nat -> cr (dm b) = n -> cc (dm b) = 3%nat ->
  (axis = Some 1%Z \/ axis = Some (-1)%Z \/ (axis = None /\ (axisa = 1%Z \/ axisa = (-1)%Z) /\ (axisb = 1%Z \/ axisb = (-1)%Z) /\ (axisc = 1%Z \/ axisc = (-1)%Z))) ->
  exists c, lnp_cross a b axisa axisb axisc axis = Ok c /\ is_mat c n 3 (fun i j => cross_entry (ce (dm a) i) (ce (dm b) i) j).
Proof.
  intros a b n axa axb axc ax H1 H2 H3 H4 H. unfold lnp_cross.
  assert (forall p q r, (p = 1 \/ p = -1)%Z -> (q = 1 \/ q = -1)%Z -> (r = 1 \/ r = -1)%Z ->
    exists c, bind (along p (dm a)) (fun a' => bind (along q (dm b)) (fun b' => bind (cas_cross a' b') (fun c => along r c))) = Ok c /\ is_mat c n 3 (fun i j => cross_entry (ce (dm a) i) (ce (dm b) i) j)) as K.
  { intros p q r Hp Hq Hr. assert (forall z x, (z = 1 \/ z = -1)%Z -> along z x = Ok (ctrans x)) as A by (intros z x [-> | ->]; reflexivity). rewrite !A by assumption. cbn [bind]. unfold cas_cross. cbn [ctrans cr cc].
    rewrite H1, H2, H3, H4, !Nat.eqb_refl. cbn [andb negb]. cbn [bind]. rewrite A by assumption. eexists. split; [reflexivity|]. split; [exact H1|]. split; [reflexivity|].
    intros i j Hi Hj. cbn [ctrans ce]. now rewrite cross_rows_entry. }
  destruct H as [-> | [-> | (-> & Ha & Hb & Hc)]]; [apply (K 1%Z 1%Z 1%Z); auto|apply (K (-1)%Z (-1)%Z (-1)%Z); auto|now apply K].
Qed.
Print Assumptions C57_cross_rows.
Theorem C57_cross_columns : forall a b n axisa axisb axisc axis, cr (dm a) = 3%nat -> cc (dm a) = n -> cr (dm b) = 3%nat -> cc (dm b) = n ->
  (axis = Some 0%Z \/ (axis = None /\ axisa = 0%Z /\ axisb = 0%Z /\ axisc = 0%Z)) ->
  exists c, lnp_cross a b axisa axisb axisc axis = Ok c /\ is_mat c 3 n (fun i j => cross_entry (fun k => ce (dm a) k j) (fun k => ce (dm b) k j) i).
Proof.
  intros a b n axa axb axc ax H1 H2 H3 H4 H. assert (lnp_cross a b axa axb axc ax = cas_cross (dm a) (dm b)) as ->.
  { unfold lnp_cross. destruct H as [-> | (-> & -> & -> & ->)]; [change (Z.eqb 0 (-1) || Z.eqb 0 0 || Z.eqb 0 1)%bool with true; cbn iota|]; rewrite !along_0; cbn [bind]; destruct (cas_cross (dm a) (dm b)); reflexivity. }
  unfold cas_cross. rewrite H1, H2, H3, H4, !Nat.eqb_refl. cbn [andb negb]. eexists. split; [reflexivity|]. split; [reflexivity|]. split; [exact H2|]. intros i j Hi Hj. now rewrite cross_rows_entry.
Qed.
Print Assumptions C57_cross_columns.
Theorem C57_cross_axis : forall a b p q r z, (z < -1 \/ 1 < z)%Z -> lnp_cross a b p q r (Some z) = Raise ValueError /\ lnp_cross a b z q r None = Raise ValueError.
Proof.
  intros a b p q r z H. unfold lnp_cross, along. destruct (Z.eqb_spec z (-1)), (Z.eqb_spec z 0), (Z.eqb_spec z 1); try lia. split; reflexivity.
Qed.
Print Assumptions C57_cross_axis.
(** with axis=1 a 3 x n matrix (n <> 3) should be refused: CasADi silently uses the axis of length three *)
Theorem C57_cross_axis_refuted : forall a b n, n <> 3%nat -> cr a = 3%nat -> cc a = n -> cr b = 3%nat -> cc b = n ->
  exists c, lnp_cross (CasM a) (CasM b) (-1) (-1) (-1) (Some 1%Z) = Ok c /\ is_mat c 3 n (fun i j => cross_entry (fun k => ce a k j) (fun k => ce b k j) i).
Proof.
  intros a b n Hn H1 H2 H3 H4. unfold lnp_cross. change (Z.eqb 1 (-1) || Z.eqb 1 0 || Z.eqb 1 1)%bool with true. cbn iota. rewrite !along_1. cbn [bind dm]. unfold cas_cross. cbn [ctrans cr cc]. rewrite H1, H2, H3, H4, !Nat.eqb_refl.
  replace (Nat.eqb n 3) with false by (symmetry; now apply Nat.eqb_neq). cbn [andb negb bind]. rewrite along_1. eexists. split; [reflexivity|]. split; [reflexivity|]. split; [exact H2|]. intros i j Hi Hj. cbn [ctrans ce]. now rewrite cross_rows_entry.
Qed.
Print Assumptions C57_cross_axis_refuted.

(** ** norm: euclidean and absolute-sum norm of a vector (column or row), Frobenius norm of a matrix, norms of the columns and rows *)
Ltac one_two := repeat match goal with |- context[Req_EM_T ?a ?b] => destruct (Req_EM_T a b); try lra end.
Theorem C57_norm_vector : forall x n, (cr x = n /\ cc x = 1%nat) \/ (cr x = 1%nat /\ cc x = n) ->
  let v i := if Nat.eqb (cr x) 1 then ce x 0 i else ce x i 0 in
  (exists t, lnp_norm x None None = Ok t /\ lnp_norm x (Some (OrdNum 2)) None = Ok t /\ is_mat t 1 1 (fun _ _ => sqrt (rsum (map (fun i => v i * v i) (seq 0 n))))) /\
  (exists t, lnp_norm x (Some (OrdNum 1)) None = Ok t /\ is_mat t 1 1 (fun _ _ => rsum (map (fun i => Rabs (v i)) (seq 0 n)))).
Proof.
  intros x n H v. unfold lnp_norm. destruct (Nat.eqb_spec (cr x) 1) as [E|E].
  - assert (cc x = n) as En by (destruct H as [[H1 H2] | [H1 H2]]; congruence). cbn [axis_of Z.eqb Pos.eqb lnp_sum]. one_two. cbn [fmap].
    split; eexists; (split; [reflexivity|]); [split; [reflexivity|]|]; (split; [exact E|]); (split; [reflexivity|]); intros i j Hi Hj; assert (i = 0)%nat as -> by lia; unfold cmap1, sum2, lnp_abs, cmap1; cbn [ce cc]; rewrite En; reflexivity.
  - assert (cc x = 1%nat /\ cr x = n) as [E1 En] by (destruct H as [[H1 H2] | [H1 H2]]; split; congruence). rewrite E1. cbn [Nat.eqb axis_of Z.eqb Pos.eqb lnp_sum]. one_two. cbn [fmap].
    split; eexists; (split; [reflexivity|]); [split; [reflexivity|]|]; (split; [exact E1|]); (split; [reflexivity|]); intros i j Hi Hj; assert (i = 0)%nat as -> by lia; unfold cmap1, sum_axis0, ctrans, sum1, lnp_abs, cmap1; cbn [ce cc cr]; rewrite En; reflexivity.
Qed.
Print Assumptions C57_norm_vector.
Theorem C57_norm_matrix : forall x, cr x <> 1%nat -> cc x <> 1%nat -> exists t, lnp_norm x None None = Ok t /\
  is_mat t 1 1 (fun _ _ => sqrt (rsum (map (fun j => rsum (map (fun i => ce x i j * ce x i j) (seq 0 (cr x)))) (seq 0 (cc x))))).
Proof.
  intros x H1 H2. unfold lnp_norm. apply Nat.eqb_neq in H1, H2. rewrite H1, H2. eexists. split; [reflexivity|]. split; [reflexivity|]. split; [reflexivity|]. intros i j _ _. cbn [cscalar ce]. rewrite map_entries, rsum_flat. reflexivity.
Qed.
Print Assumptions C57_norm_matrix.
Theorem C57_norm_axis : forall x,
  (exists t, lnp_norm x None (Some 0%Z) = Ok t /\ is_mat t (cc x) 1 (fun j _ => sqrt (rsum (map (fun i => ce x i j * ce x i j) (seq 0 (cr x)))))) /\
  (exists t, lnp_norm x None (Some 1%Z) = Ok t /\ is_mat t (cr x) 1 (fun i _ => sqrt (rsum (map (fun j => ce x i j * ce x i j) (seq 0 (cc x)))))) /\
  (exists t, lnp_norm x (Some (OrdNum 1)) (Some 0%Z) = Ok t /\ is_mat t (cc x) 1 (fun j _ => rsum (map (fun i => Rabs (ce x i j)) (seq 0 (cr x))))) /\
  (exists t, lnp_norm x (Some (OrdNum 1)) (Some 1%Z) = Ok t /\ is_mat t (cr x) 1 (fun i _ => rsum (map (fun j => Rabs (ce x i j)) (seq 0 (cc x))))) /\
  (forall o z, (z < -1 \/ 1 < z)%Z -> lnp_norm x o (Some z) = Raise ValueError).
Proof.
  intro x. unfold lnp_norm. cbn [Z.eqb Pos.eqb orb axis_of lnp_sum]. one_two. cbn [fmap].
  repeat split; try (eexists; split; [reflexivity|]; repeat split; reflexivity).
  intros o z H. destruct (Z.eqb_spec z 0), (Z.eqb_spec z 1), (Z.eqb_spec z (-1)); try lia. reflexivity.
Qed.
Print Assumptions C57_norm_axis.
(** axis=-1 is accepted by the check and then refused by [sum]; every order but 1, 2 and "fro" is a NameError ([np] is not defined there);
    ord=2 and ord=1 of a matrix are entry-wise and not the operator norms: for the identity numpy gives 1 *)
Theorem C57_norm_refuted :
  (forall x, lnp_norm x None (Some (-1)%Z) = Raise ValueError /\ lnp_norm x (Some (OrdNum 1)) (Some (-1)%Z) = Raise ValueError) /\
  (forall x r, r <> 1 -> r <> 2 -> lnp_norm x (Some (OrdNum r)) None = Raise NameError) /\ (forall x, lnp_norm x (Some OrdInf) None = Raise NameError) /\
  (exists t u, lnp_norm (lnp_eye 2) (Some (OrdNum 2)) None = Ok t /\ ce t 0 0 = sqrt 2 /\ lnp_norm (lnp_eye 2) (Some (OrdNum 1)) None = Ok u /\ ce u 0 0 = 2).
Proof.
  split; [|split; [|split]].
  - intro x. unfold lnp_norm. cbn [Z.eqb Pos.eqb orb axis_of lnp_sum]. one_two. split; reflexivity.
  - intros x r H1 H2. unfold lnp_norm. destruct (Nat.eqb (cr x) 1), (Nat.eqb (cc x) 1); one_two; reflexivity.
  - intro x. unfold lnp_norm. destruct (Nat.eqb (cr x) 1), (Nat.eqb (cc x) 1); reflexivity.
  - unfold lnp_norm. cbn [lnp_eye cr cc Nat.eqb axis_of lnp_sum]. one_two. cbn [fmap]. eexists. eexists. split; [reflexivity|]. split; [|split; [reflexivity|]].
    + cbn. f_equal. ring.
    + cbn. rewrite Rabs_R0, Rabs_R1. ring.
Qed.
Print Assumptions C57_norm_refuted.
