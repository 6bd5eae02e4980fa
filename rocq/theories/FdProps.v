(** C43: finite difference coefficients. *)
From Coq Require FinFun.
From Verif Require Import Base RBase CollocModel CollocProofs CollocProps FdModel FdSpec FdProofs.

(** On every grid of distinct points (in any order, with any spacing, x0 anywhere) and for every derivative degree M with 1 <= M < number of points:
    the returned weights give the M-th derivative at x0 of every polynomial of degree < number of points, and they are the only such weights. *)
Theorem C43_exact : forall x x0 M, NoDup x -> (1 <= M)%Z -> (M < Z.of_nat (List.length x))%Z ->
  exists w, finite_difference_coefficients x x0 M = Ok (FdArray w) /\ List.length w = List.length x /\
    exact_on_polynomials x x0 (Z.to_nat M) w /\
    forall w', List.length w' = List.length x -> exact_on_polynomials x x0 (Z.to_nat M) w' -> w' = w.
Proof.
  intros x x0 M Hn H1 H2. unfold finite_difference_coefficients. destruct (Z.ltb_spec M 1); [lia|]. destruct (Z.ltb_spec (Z.of_nat (List.length x) - M) 1); [lia|].
  set (m := Z.to_nat M). set (w := map _ _). exists w. assert (x <> []) as Hx by (destruct x; [cbn in H2; lia|discriminate]). set (N := List.length x) in *.
  assert (List.length w = N) as Lw by (unfold w; now rewrite map_length, seq_length).
  assert (forall v, (v < N)%nat -> vget v w = peval (dn m (P x (N - 1) v)) x0) as Hw.
  { intros v Hv. unfold w, vget. rewrite nth_map_in with (d' := 0%nat) by (now rewrite seq_length). rewrite seq_nth by assumption. now apply weights_are. }
  assert (forall (a : list R) p, List.length a = N -> rsum (map2 (fun wi xi => wi * peval p xi) a x) = rsum (map (fun v => vget v a * peval p (vget v x)) (seq 0 N))) as S.
  { intros a p. unfold N. clear. revert a. induction x as [|y x IH]; intros [|b a] L; try discriminate; [reflexivity|]. cbn [map2 List.length seq map rsum]. rewrite <- seq_shift, map_map. unfold vget at 1 2. cbn [nth]. f_equal. apply IH. now injection L. }
  split; [reflexivity|]. split; [exact Lw|]. split.
  - intros p g Hp Hg. rewrite S by assumption. rewrite (nth_derivative_unique m (peval p) g (peval (dn m p)) Hg (dn_nth m p)).
    rewrite (dn_ext m p (psum (fun v => pscale (peval p (vget v x)) (P x (N - 1) v)) N)) by (intro t; symmetry; now apply interp_P).
    rewrite dn_psum. apply rsum_ext. intros v Hv. apply in_seq in Hv. rewrite Hw, dn_pscale by lia. ring.
  - intros w' L' E. apply vec_ext; [congruence|]. intros v Hv. rewrite L' in Hv.
    assert (forall a, List.length a = N -> exact_on_polynomials x x0 m a -> vget v a = peval (dn m (P x (N - 1) v)) x0) as K; [|rewrite (K w' L' E); symmetry; now apply Hw].
    intros a La Ea. rewrite <- (Ea (P x (N - 1) v) (peval (dn m (P x (N - 1) v)))); [|rewrite P_len; fold N; lia|apply dn_nth]. rewrite S by assumption.
    rewrite (rsum_ext _ _ (fun k => if Nat.eqb k v then vget v a else 0)).
    + rewrite (rsum_single (fun k => if Nat.eqb k v then vget v a else 0) v); [now rewrite Nat.eqb_refl|lia|]. intros j Hj. apply Nat.eqb_neq in Hj. now rewrite Hj.
    + intros k Hk. apply in_seq in Hk. rewrite P_kron by (auto; fold N; lia). rewrite Nat.eqb_sym. destruct (Nat.eqb_spec k v) as [->|]; ring.
Qed.
Print Assumptions C43_exact.

(** the weights of a derivative add up to 0, and shifting the grid together with x0 does not change them *)
Theorem C43_shift : forall x x0 M a, NoDup x -> (1 <= M)%Z -> (M < Z.of_nat (List.length x))%Z ->
  finite_difference_coefficients (map (fun t => t + a) x) (x0 + a) M = finite_difference_coefficients x x0 M /\
  forall w, finite_difference_coefficients x x0 M = Ok (FdArray w) -> rsum w = 0.
Proof.
  intros x x0 M a Hn H1 H2. destruct (C43_exact x x0 M Hn H1 H2) as (w & E & L & X & U).
  assert (NoDup (map (fun t => t + a) x)) as Hn'. { apply Coq.Logic.FinFun.Injective_map_NoDup; [intros u v Huv; lra|assumption]. }
  destruct (C43_exact (map (fun t => t + a) x) (x0 + a) M Hn' H1) as (w' & E' & L' & X' & U'); [now rewrite map_length|].
  split.
  - rewrite E, E'. do 2 f_equal. rewrite map_length in L'. apply U; [assumption|]. intros p g Hp (gs & G0 & G1 & G2).
    destruct (poly_affine p (- a) 1) as (q & Lq & Eq).
    specialize (X' q (fun t => g (- a + 1 * t))). rewrite map_length, Lq in X'. specialize (X' Hp).
    assert (nth_derivative (Z.to_nat M) (peval q) (fun t => g (- a + 1 * t))) as D.
    { exists (fun i t => gs i (- a + 1 * t)). split; [intro t; rewrite G0; symmetry; apply Eq|]. split; [|intro; apply G2]. intros i t Hi.
      eapply dlim_eq; [|apply (derivable_pt_lim_comp (fun t => - a + 1 * t) (gs i)); [apply dlim_ext with (f := fun t => 1 * t + (- a)); [intro; ring|apply dlim_lin]|apply G1; assumption]]. cbv beta. ring. }
    specialize (X' D). replace (- a + 1 * (x0 + a)) with x0 in X' by ring. rewrite <- X'. clear - Eq. revert x. induction w' as [|b w' IH]; intros [|y x]; try reflexivity. cbn [map map2 rsum]. rewrite <- IH. f_equal. rewrite Eq. do 2 f_equal. ring.
  - intros w2 E2. rewrite E in E2. injection E2 as <-. specialize (X [1] (peval (dn (Z.to_nat M) [1]))). rewrite dn_zero in X by (cbn; lia). rewrite <- X; [|destruct x; [cbn in H2; lia|cbn; lia]|apply dn_nth].
    clear - L. revert x L. induction w as [|b w IH]; intros [|y x] L; try discriminate; [reflexivity|]. cbn [map2 rsum peval]. rewrite (IH x) by (now injection L). cbn [peval]. ring.
Qed.
Print Assumptions C43_shift.

(** Finding: bad arguments are not rejected; the exception object is returned as if it were the coefficients. *)
Theorem C43_bad_arguments_refuted : forall x x0 M, (M < 1 \/ Z.of_nat (List.length x) <= M)%Z -> finite_difference_coefficients x x0 M = Ok FdExceptionObject.
Proof. intros x x0 M H. unfold finite_difference_coefficients. destruct (Z.ltb_spec M 1); [reflexivity|]. destruct (Z.ltb_spec (Z.of_nat (List.length x) - M) 1); [reflexivity|lia]. Qed.
Print Assumptions C43_bad_arguments_refuted.

(** the central difference: grid -1, 0, 1, second derivative: 1, -2, 1 *)
Example C43_nonvacuous : NoDup [-1; 0; 1] /\ finite_difference_coefficients [-1; 0; 1] 0 2 = Ok (FdArray [1; -2; 1]).
Proof.
  assert (NoDup [-1; 0; 1]) as Hn by (repeat constructor; cbn; intuition lra). split; [exact Hn|].
  destruct (C43_exact [-1; 0; 1] 0 2 Hn) as (w & E & L & X & U); [lia|cbn; lia|]. rewrite E. do 2 f_equal. symmetry. apply U; [reflexivity|].
  intros p g Hp Hg. rewrite (nth_derivative_unique _ _ _ _ Hg (dn_nth 2 p)). change (Z.to_nat 2) with 2%nat.
  destruct p as [|a [|b [|c [|d p]]]]; [| | | |cbn in Hp; lia]; cbn; ring.
Qed.
