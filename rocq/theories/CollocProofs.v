(** Polynomials, Lagrange interpolation. *)
From Verif Require Import Base RBase CollocModel.

Lemma peval_padd : forall p q t, peval (padd p q) t = peval p t + peval q t.
Proof. intros p; induction p as [|a p IH]; intros [|b q] t; simpl; try lra. rewrite IH. lra. Qed.
Lemma peval_pscale : forall k p t, peval (pscale k p) t = k * peval p t.
Proof. intros k p t; unfold pscale; induction p as [|a p IH]; simpl; [lra|]. rewrite IH. ring. Qed.
Lemma peval_pmul_lin : forall p c0 c1 t, peval (pmul_lin p c0 c1) t = peval p t * (c0 + c1 * t).
Proof. intros. unfold pmul_lin. rewrite peval_padd. simpl. rewrite !peval_pscale. ring. Qed.
Lemma padd_length : forall p q, List.length (padd p q) = Nat.max (List.length p) (List.length q).
Proof. intros p; induction p as [|a p IH]; intros [|b q]; simpl; auto. Qed.
Lemma pmul_lin_length : forall p c0 c1, p <> [] -> List.length (pmul_lin p c0 c1) = S (List.length p).
Proof. intros. unfold pmul_lin. rewrite padd_length. simpl. unfold pscale. rewrite !map_length. destruct p; [congruence|]. simpl. lia. Qed.

(** ** Derivative and integral *)
Lemma pdiff_from_shift : forall p k t, peval (pdiff_from (S k) p) t = peval (pdiff_from k p) t + peval p t.
Proof. intros p; induction p as [|c p IH]; intros k t; cbn [pdiff_from peval]; [lra|]. rewrite IH, S_INR. ring. Qed.

Lemma peval_deriv : forall p t, derivable_pt_lim (peval p) t (peval (pdiff p) t).
Proof.
  intros p; induction p as [|c p IH]; intro t.
  - simpl. apply (dlim_const 0 t).
  - apply dlim_ext with (f := fun t => c + t * peval p t); [reflexivity|].
    eapply dlim_eq; [|apply dlim_plus; [apply dlim_const | apply dlim_mult; [apply dlim_ext with (f := fun t => 1 * t + 0); [intro; ring | apply dlim_lin] | apply IH]]].
    destruct p as [|d p]; [cbn; ring|].
    cbn [pdiff pdiff_from]. cbn [peval]. rewrite (pdiff_from_shift p 1). cbn [INR]. ring.
Qed.

Lemma pdiff_pinteg : forall p t, peval (pdiff (pinteg p)) t = peval p t.
Proof.
  intros p t. unfold pinteg, pdiff. generalize 1%nat as k, (Nat.neq_succ_0 0 : 1%nat <> 0%nat).
  induction p as [|c p IH]; intros k Hk; cbn [pint_from pdiff_from peval]; [reflexivity|]. rewrite IH by lia. field. now apply not_0_INR.
Qed.
Lemma pinteg_deriv : forall p t, derivable_pt_lim (peval (pinteg p)) t (peval p t).
Proof. intros. rewrite <- pdiff_pinteg. apply peval_deriv. Qed.

Lemma peval_cont : forall p, continuity (peval p).
Proof. intros p t. apply derivable_continuous_pt. exists (peval (pdiff p) t). apply peval_deriv. Qed.

(** two functions with the same derivative everywhere have the same increments *)
Lemma same_deriv_same_incr : forall F G f, (forall t, derivable_pt_lim F t (f t)) -> (forall t, derivable_pt_lim G t (f t)) ->
  forall a b, F b - F a = G b - G a.
Proof.
  intros F G f HF HG a b.
  assert (forall t, derivable_pt_lim (fun u => F u + (-1) * G u) t 0) as H.
  { intro t. eapply dlim_eq; [|apply dlim_plus; [apply HF | apply dlim_scal; apply HG]]. lra. }
  assert (derivable (fun u => F u + (-1) * G u)) as D by (intro t; exists 0; apply H).
  assert (forall t, derive_pt (fun u => F u + (-1) * G u) t (D t) = 0) as Z by (intro t; apply derive_pt_eq_0; apply H).
  pose proof (null_derivative_1 _ D Z a b) as K. simpl in K. lra.
Qed.

(** ** Roots *)
(** synthetic division by (t - a): quotient and remainder *)
Fixpoint synth (a : R) (p : list R) : list R * R :=
  match p with
  | [] => ([], 0)
  | c :: q => let (q', r') := synth a q in (r' :: q', c + a * r')
  end.
Lemma synth_spec : forall a p t, peval p t = (t - a) * peval (fst (synth a p)) t + snd (synth a p).
Proof.
  intros a p t; induction p as [|c q IH]; [simpl; ring|].
  simpl. destruct (synth a q) as [q' r'] eqn:E. simpl in *. rewrite IH. ring.
Qed.
Lemma synth_len : forall a p, List.length (fst (synth a p)) = List.length p.
Proof. intros a p; induction p as [|c q IH]; [reflexivity|]. simpl. destruct (synth a q) as [q' r'] eqn:E. simpl in *. now rewrite IH. Qed.

(** the quotient's leading coefficient is always 0, so a shorter list describes it *)
Definition quot (a : R) (p : list R) : list R := removelast (fst (synth a p)).
Lemma synth_last : forall a c p, exists q, fst (synth a (c :: p)) = q ++ [0] /\ List.length q = List.length p.
Proof.
  intros a c p; revert c; induction p as [|d p IH]; intro c.
  - exists []. split; reflexivity.
  - destruct (IH d) as (q & E & L). remember (d :: p) as dp. simpl. destruct (synth a dp) as [q' r'] eqn:Es. simpl in *. subst q'.
    exists (r' :: q). split; [reflexivity|]. subst dp. simpl. now rewrite L.
Qed.
Lemma peval_app0 : forall q t, peval (q ++ [0]) t = peval q t.
Proof. intros q t; induction q as [|a q IH]; simpl; [lra|]. now rewrite IH. Qed.
Lemma divide_root : forall p a, peval p a = 0 -> exists q, (List.length q = List.length p - 1)%nat /\ forall t, peval p t = (t - a) * peval q t.
Proof.
  intros [|c p] a H.
  - exists []. split; [reflexivity|]. intro t; simpl; ring.
  - destruct (synth_last a c p) as (q & E & L). exists q. split; [simpl; lia|]. intro t.
    pose proof (synth_spec a (c :: p) a) as Ha. rewrite H in Ha.
    rewrite (synth_spec a (c :: p) t). rewrite E, peval_app0. assert (snd (synth a (c :: p)) = 0) as -> by lra. ring.
Qed.

Lemma factor_roots : forall l p, NoDup l -> (forall a, In a l -> peval p a = 0) ->
  exists q, (List.length q = List.length p - List.length l)%nat /\
    forall t, peval p t = fold_right Rmult 1 (map (fun a => t - a) l) * peval q t.
Proof.
  intros l; induction l as [|a l IH]; intros p Hn Hr.
  - exists p. simpl. split; [lia|]. intro; ring.
  - inversion Hn; subst. destruct (divide_root p a) as (q & Lq & Eq); [apply Hr; simpl; auto|].
    destruct (IH q H2) as (q2 & L2 & E2).
    { intros b Hb. specialize (Hr b (or_intror Hb)). rewrite Eq in Hr. apply Rmult_integral in Hr. destruct Hr as [Hr|Hr]; [|assumption].
      exfalso. assert (b = a) by lra. subst. contradiction. }
    exists q2. split; [simpl; lia|]. intro t. rewrite Eq, E2. simpl. ring.
Qed.

(** a polynomial with at least as many distinct roots as coefficients is zero *)
Lemma too_many_roots : forall l p, NoDup l -> (forall a, In a l -> peval p a = 0) -> (List.length p <= List.length l)%nat ->
  forall t, peval p t = 0.
Proof.
  intros l p Hn Hr Hl t. destruct (factor_roots l p Hn Hr) as (q & Lq & Eq). rewrite Eq.
  assert (q = []) as -> by (destruct q; simpl in *; [reflexivity|lia]). simpl. ring.
Qed.

(** ** Lagrange basis *)
Definition lstep (x : list R) (j : nat) (pt : list R) (k : nat) : list R :=
  if Nat.eqb k j then pt else let fac := vget j x - vget k x in pmul_lin pt (- vget k x / fac) (1 / fac).
Lemma lag_term_gen : forall x j ks pt,
  (forall t, peval (fold_left (lstep x j) ks pt) t =
    peval pt t * fold_right Rmult 1 (map (fun k => if Nat.eqb k j then 1 else (- vget k x / (vget j x - vget k x)) + (1 / (vget j x - vget k x)) * t) ks)) /\
  (pt <> [] -> (List.length (fold_left (lstep x j) ks pt) = List.length pt + List.length (filter (fun k => negb (Nat.eqb k j)) ks))%nat).
Proof.
  intros x j ks; induction ks as [|k ks IH]; intros pt.
  - simpl. split; [intro; ring|]. intro; lia.
  - cbn [fold_left map fold_right filter]. destruct (IH (lstep x j pt k)) as [I1 I2]. split.
    + intro t. rewrite I1. unfold lstep at 1. destruct (Nat.eqb k j); [ring|]. cbv zeta. rewrite peval_pmul_lin. ring.
    + intro Hp. rewrite I2.
      * unfold lstep. destruct (Nat.eqb k j); simpl; [reflexivity|]. rewrite pmul_lin_length by assumption. lia.
      * unfold lstep. destruct (Nat.eqb k j); [assumption|]. cbv zeta. intro C. apply (f_equal (@List.length R)) in C.
        rewrite pmul_lin_length in C by assumption. discriminate.
Qed.

Lemma filter_seq_ne : forall j n s, (s <= j < s + n)%nat -> List.length (filter (fun k => negb (Nat.eqb k j)) (seq s n)) = (n - 1)%nat.
Proof.
  intros j n; induction n as [|n IH]; intros s H; [lia|]. simpl. destruct (Nat.eqb_spec s j).
  - simpl. subst. assert (forall m, filter (fun k => negb (Nat.eqb k j)) (seq (S j) m) = seq (S j) m) as F.
    { intro m. assert (forall s', (j < s')%nat -> filter (fun k => negb (Nat.eqb k j)) (seq s' m) = seq s' m) as G; [|apply G; lia].
      induction m as [|m IHm]; intros s' Hs; simpl; [reflexivity|]. destruct (Nat.eqb_spec s' j); [lia|]. simpl. now rewrite IHm by lia. }
    rewrite F, seq_length. lia.
  - simpl. rewrite IH by lia. lia.
Qed.

Lemma lag_term_eval : forall x j w t, peval (lag_term x j w) t =
  w * fold_right Rmult 1 (map (fun k => if Nat.eqb k j then 1 else (t - vget k x) / (vget j x - vget k x)) (seq 0 (List.length x))).
Proof.
  intros x j w t. unfold lag_term. destruct (lag_term_gen x j (seq 0 (List.length x)) [w]) as [H _]. change (peval (fold_left (lstep x j) (seq 0 (List.length x)) [w]) t = w * fold_right Rmult 1 (map (fun k => if Nat.eqb k j then 1 else (t - vget k x) / (vget j x - vget k x)) (seq 0 (List.length x)))). rewrite H. simpl peval.
  f_equal; [lra|]. f_equal. apply map_ext. intro k. destruct (Nat.eqb k j); [reflexivity|]. unfold Rdiv. ring.
Qed.
Lemma lag_term_len : forall x j w, (j < List.length x)%nat -> List.length (lag_term x j w) = List.length x.
Proof.
  intros x j w Hj. unfold lag_term. destruct (lag_term_gen x j (seq 0 (List.length x)) [w]) as [_ H].
  change (List.length (fold_left (lstep x j) (seq 0 (List.length x)) [w]) = List.length x). rewrite H by discriminate. rewrite filter_seq_ne by lia. simpl. lia.
Qed.

Lemma prod_zero : forall (l : list R), In 0 l -> fold_right Rmult 1 l = 0.
Proof. intros l; induction l as [|a l IH]; simpl; intros H; [contradiction|]. destruct H as [->|H]; [ring|rewrite IH by assumption; ring]. Qed.
Lemma prod_one : forall (l : list R), Forall (fun a => a = 1) l -> fold_right Rmult 1 l = 1.
Proof. intros l H; induction H as [|a l Ha H IH]; simpl; [reflexivity|]. rewrite IH, Ha. ring. Qed.

Lemma vget_inj : forall x i j, NoDup x -> (i < List.length x)%nat -> (j < List.length x)%nat -> vget i x = vget j x -> i = j.
Proof. intros x i j Hn Hi Hj E. unfold vget in E. eapply NoDup_nth; eauto. Qed.

Lemma lag_term_kron : forall x j w m, NoDup x -> (j < List.length x)%nat -> (m < List.length x)%nat ->
  peval (lag_term x j w) (vget m x) = if Nat.eqb m j then w else 0.
Proof.
  intros x j w m Hn Hj Hm. rewrite lag_term_eval. destruct (Nat.eqb_spec m j) as [->|Hne].
  - rewrite prod_one; [ring|]. apply Forall_map. apply Forall_forall. intros k Hk. apply in_seq in Hk. destruct (Nat.eqb_spec k j) as [|Hkj]; [reflexivity|].
    field. intro C. apply Hkj. apply (vget_inj x); auto; [lia|lra].
  - rewrite prod_zero; [ring|]. apply in_map_iff. exists m. split; [|apply in_seq; lia].
    destruct (Nat.eqb_spec m j); [contradiction|]. unfold Rdiv. ring.
Qed.

Lemma fold_padd_eval : forall (f : nat -> list R) ks p t, peval (fold_left (fun p j => padd p (f j)) ks p) t = peval p t + rsum (map (fun j => peval (f j) t) ks).
Proof. intros f ks; induction ks as [|k ks IH]; intros p t; simpl; [lra|]. rewrite IH, peval_padd. lra. Qed.
Lemma fold_padd_len : forall (f : nat -> list R) n ks p, (List.length p <= n)%nat -> Forall (fun j => (List.length (f j) <= n)%nat) ks ->
  (List.length (fold_left (fun p j => padd p (f j)) ks p) <= n)%nat.
Proof. intros f n ks; induction ks as [|k ks IH]; intros p Hp H; simpl; [assumption|]. inversion H; subst. apply IH; [|assumption]. rewrite padd_length. lia. Qed.

Lemma lagrange_eval : forall x w t, peval (lagrange x w) t = rsum (map (fun j => peval (lag_term x j (vget j w)) t) (seq 0 (List.length x))).
Proof. intros. unfold lagrange. rewrite fold_padd_eval. simpl. lra. Qed.
Lemma lagrange_len : forall x w, x <> [] -> (List.length (lagrange x w) <= List.length x)%nat.
Proof.
  intros x w Hx. unfold lagrange. apply fold_padd_len; [destruct x; simpl; [congruence|lia]|]. apply Forall_forall. intros j Hj. apply in_seq in Hj.
  rewrite lag_term_len; lia.
Qed.

Lemma rsum_zero : forall l, Forall (fun a => a = 0) l -> rsum l = 0.
Proof. intros l H; induction H as [|a l Ha H IH]; simpl; [reflexivity|]. lra. Qed.
Lemma rsum_single : forall (g : nat -> R) m n s, (s <= m < s + n)%nat -> (forall j, j <> m -> g j = 0) -> rsum (map g (seq s n)) = g m.
Proof.
  intros g m n; induction n as [|n IH]; intros s H Hz; [lia|]. simpl. destruct (Nat.eq_dec s m) as [->|Hne].
  - rewrite rsum_zero; [lra|]. apply Forall_map. apply Forall_forall. intros j Hj. apply in_seq in Hj. apply Hz. lia.
  - rewrite IH by (auto; lia). rewrite Hz by assumption. lra.
Qed.
Lemma rsum_ext : forall X (f g : X -> R) l, (forall a, In a l -> f a = g a) -> rsum (map f l) = rsum (map g l).
Proof. intros X f g l; induction l as [|a l IH]; intro H; simpl; [reflexivity|]. rewrite (H a) by (simpl; auto). rewrite IH by (intros; apply H; simpl; auto). reflexivity. Qed.

(** interpolation property of scipy's lagrange *)
Lemma lagrange_interp : forall x w m, NoDup x -> (m < List.length x)%nat -> peval (lagrange x w) (vget m x) = vget m w.
Proof.
  intros x w m Hn Hm. rewrite lagrange_eval.
  rewrite rsum_ext with (g := fun j => if Nat.eqb m j then vget j w else 0).
  - rewrite (rsum_single _ m) by (first [lia | intros j Hj; destruct (Nat.eqb_spec m j); [congruence|reflexivity]]). now rewrite Nat.eqb_refl.
  - intros j Hj. apply in_seq in Hj. apply lag_term_kron; auto; lia.
Qed.

Lemma basis_kron : forall x i m, NoDup x -> (i < List.length x)%nat -> (m < List.length x)%nat ->
  peval (make_lagrange_polynomial x i) (vget m x) = if Nat.eqb i m then 1 else 0.
Proof.
  intros x i m Hn Hi Hm. unfold make_lagrange_polynomial. rewrite lagrange_interp by assumption.
  destruct (Nat.eqb_spec i m) as [->|Hne].
  - apply vget_upd_same. unfold zeros. rewrite repeat_length. lia.
  - rewrite vget_upd_other by congruence. unfold vget, zeros. apply nth_repeat.
Qed.

Lemma basis_len : forall x i, x <> [] -> (List.length (make_lagrange_polynomial x i) <= List.length x)%nat.
Proof. intros. now apply lagrange_len. Qed.

(** linear combination of the basis *)
Definition combo (x v : list R) : list R := fold_left (fun p j => padd p (pscale (vget j v) (make_lagrange_polynomial x j))) (seq 0 (List.length x)) [].
Lemma combo_eval : forall x v t, peval (combo x v) t = rsum (map (fun j => vget j v * peval (make_lagrange_polynomial x j) t) (seq 0 (List.length x))).
Proof. intros. unfold combo. rewrite fold_padd_eval. simpl. rewrite Rplus_0_l. apply rsum_ext. intros. apply peval_pscale. Qed.
Lemma combo_len : forall x v, x <> [] -> (List.length (combo x v) <= List.length x)%nat.
Proof.
  intros x v Hx. unfold combo. apply fold_padd_len; [simpl; lia|]. apply Forall_forall. intros j _. unfold pscale. rewrite map_length. now apply basis_len.
Qed.
Lemma combo_interp : forall x v m, NoDup x -> (m < List.length x)%nat -> peval (combo x v) (vget m x) = vget m v.
Proof.
  intros x v m Hn Hm. rewrite combo_eval.
  rewrite rsum_ext with (g := fun j => if Nat.eqb m j then vget j v else 0).
  - rewrite (rsum_single _ m) by (first [lia | intros j Hj; destruct (Nat.eqb_spec m j); [congruence|reflexivity]]). now rewrite Nat.eqb_refl.
  - intros j Hj. apply in_seq in Hj. rewrite basis_kron by (auto; lia). rewrite Nat.eqb_sym. destruct (Nat.eqb m j); lra.
Qed.

(** every polynomial with at most n coefficients is its own interpolant *)
Lemma interp_exact : forall x q, NoDup x -> (List.length q <= List.length x)%nat ->
  forall t, rsum (map (fun j => peval q (vget j x) * peval (make_lagrange_polynomial x j) t) (seq 0 (List.length x))) = peval q t.
Proof.
  intros x q Hn Hq t. destruct x as [|x0 xr].
  { simpl in *. destruct q; simpl in *; [reflexivity|lia]. }
  set (x := x0 :: xr) in *. assert (x <> []) as Hne by discriminate.
  set (v := map (peval q) x).
  assert (forall j, (j < List.length x)%nat -> vget j v = peval q (vget j x)) as Hv.
  { intros j Hj. unfold v, vget. rewrite nth_indep with (d' := peval q 0) by (now rewrite map_length). apply map_nth. }
  rewrite rsum_ext with (g := fun j => vget j v * peval (make_lagrange_polynomial x j) t).
  2:{ intros j Hj. apply in_seq in Hj. rewrite Hv by lia. reflexivity. }
  rewrite <- combo_eval.
  assert (peval (padd (combo x v) (pscale (-1) q)) t = 0) as Z.
  { apply (too_many_roots x); [assumption| |].
    - intros a Ha. destruct (In_nth _ _ 0 Ha) as (m & Hm & <-). fold (vget m x). rewrite peval_padd, peval_pscale, combo_interp, Hv by assumption. lra.
    - rewrite padd_length. unfold pscale. rewrite map_length. pose proof (combo_len x v Hne). lia. }
  rewrite peval_padd, peval_pscale in Z. lra.
Qed.

(** ** Matrices *)
Lemma nth_map_in : forall A B (f : A -> B) l i d d', (i < List.length l)%nat -> nth i (map f l) d = f (nth i l d').
Proof. intros A B f l i d d' H. rewrite nth_indep with (d' := f d') by (now rewrite map_length). apply map_nth. Qed.
Lemma diffm_get : forall x ev i j, (i < List.length ev)%nat -> (j < List.length x)%nat ->
  mget i j (build_lagrange_differential_matrix x ev) = peval (pdiff (make_lagrange_polynomial x j)) (vget i ev).
Proof.
  intros x ev i j Hi Hj. unfold mget, build_lagrange_differential_matrix, make_lagrange_basis. unfold vget.
  rewrite (nth_map_in _ _ _ _ _ _ 0) by assumption. rewrite !map_map.
  rewrite (nth_map_in _ _ _ _ _ _ 0%nat) by (now rewrite seq_length). now rewrite seq_nth by assumption.
Qed.
Lemma intm_get : forall x ev i j, (i < List.length ev)%nat -> (j < List.length x)%nat ->
  mget i j (build_lagrange_integration_matrix x ev) =
  peval (pinteg (make_lagrange_polynomial x j)) (vget i ev) - peval (pinteg (make_lagrange_polynomial x j)) (vget 0 x).
Proof.
  intros x ev i j Hi Hj. unfold mget, build_lagrange_integration_matrix, make_lagrange_basis. unfold vget at 1.
  rewrite (nth_map_in _ _ _ _ _ _ 0) by assumption. rewrite !map_map.
  rewrite (nth_map_in _ _ _ _ _ _ 0%nat) by (now rewrite seq_length). now rewrite seq_nth by assumption.
Qed.

Lemma dlim_sum : forall X (f : X -> R -> R) (d : X -> R) l t, (forall a, In a l -> derivable_pt_lim (f a) t (d a)) ->
  derivable_pt_lim (fun u => rsum (map (fun a => f a u) l)) t (rsum (map d l)).
Proof.
  intros X f d l t; induction l as [|a l IH]; intro H; simpl; [apply dlim_const|].
  apply dlim_plus; [apply H; simpl; auto | apply IH; intros; apply H; simpl; auto].
Qed.
Lemma rsum_plus : forall X (f g : X -> R) l, rsum (map (fun a => f a + g a) l) = rsum (map f l) + rsum (map g l).
Proof. intros X f g l; induction l as [|a l IH]; simpl; [lra|]. rewrite IH. lra. Qed.
Lemma rsum_mult_l : forall X (k : R) (f : X -> R) l, rsum (map (fun a => k * f a) l) = k * rsum (map f l).
Proof. intros X k f l; induction l as [|a l IH]; simpl; [lra|]. rewrite IH. lra. Qed.

(** differentiation matrix applied to any nodal values: derivative of the interpolant *)
Lemma diffm_interp : forall x ev (v : nat -> R) i, (i < List.length ev)%nat ->
  derivable_pt_lim (fun t => rsum (map (fun j => v j * peval (make_lagrange_polynomial x j) t) (seq 0 (List.length x)))) (vget i ev)
    (rsum (map (fun j => mget i j (build_lagrange_differential_matrix x ev) * v j) (seq 0 (List.length x)))).
Proof.
  intros x ev v i Hi.
  apply (dlim_sum _ (fun j t => v j * peval (make_lagrange_polynomial x j) t)). intros j Hj. apply in_seq in Hj.
  rewrite diffm_get by lia. rewrite Rmult_comm. apply dlim_scal. apply peval_deriv.
Qed.
(** integration matrix applied to any nodal values: increment of any antiderivative of the interpolant *)
Lemma intm_interp : forall x ev (v : nat -> R) i F, (i < List.length ev)%nat ->
  (forall t, derivable_pt_lim F t (rsum (map (fun j => v j * peval (make_lagrange_polynomial x j) t) (seq 0 (List.length x))))) ->
  rsum (map (fun j => mget i j (build_lagrange_integration_matrix x ev) * v j) (seq 0 (List.length x))) = F (vget i ev) - F (vget 0 x).
Proof.
  intros x ev v i F Hi HF.
  pose (G := fun t => rsum (map (fun j => v j * peval (pinteg (make_lagrange_polynomial x j)) t) (seq 0 (List.length x)))).
  assert (forall t, derivable_pt_lim G t (rsum (map (fun j => v j * peval (make_lagrange_polynomial x j) t) (seq 0 (List.length x))))) as HG.
  { intro t. apply (dlim_sum _ (fun j t => v j * peval (pinteg (make_lagrange_polynomial x j)) t)). intros j _. apply dlim_scal, pinteg_deriv. }
  rewrite (same_deriv_same_incr F G _ HF HG). unfold G.
  assert (forall (f g : nat -> R) l, rsum (map f l) - rsum (map g l) = rsum (map (fun j => f j - g j) l)) as Hsub.
  { intros f g l; induction l as [|a l IH]; simpl; [lra|]. rewrite <- IH. lra. }
  rewrite Hsub. apply rsum_ext. intros j Hj. apply in_seq in Hj. rewrite intm_get by lia. ring.
Qed.
