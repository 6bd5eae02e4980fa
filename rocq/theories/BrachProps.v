(** C59: the brachistochrone example: the reference time is the shortest possible time of the model. *)
From Verif Require Import Base RBase CasModel BrachModel BrachSpec BrachProofs.
From Coq Require Import Lra.
Open Scope R_scope.

(** the rolling circle: a motion of the model on every arch *)
Lemma rolling : forall g k T, k <> 0 ->
  motion g T [] (fun t => / k * t - PI / 2) (fun t => g * k * sin (/ k * t)) (fun t => g * (k * k) / 4 * (2 * / k * t - sin (2 * / k * t))) (fun t => - (g * (k * k) / 4 * (1 - cos (2 * / k * t)))).
Proof.
  intros g k T Hk.
  assert (forall t, derivable_pt_lim (fun t => g * k * sin (/ k * t)) t (- g * sin (/ k * t - PI / 2)) /\
    derivable_pt_lim (fun t => g * (k * k) / 4 * (2 * / k * t - sin (2 * / k * t))) t (cos (/ k * t - PI / 2) * (g * k * sin (/ k * t))) /\
    derivable_pt_lim (fun t => - (g * (k * k) / 4 * (1 - cos (2 * / k * t)))) t (sin (/ k * t - PI / 2) * (g * k * sin (/ k * t)))) as D.
  { intro t. assert (sin (/ k * t - PI / 2) = - cos (/ k * t)) as S1 by (rewrite sin_minus, sin_PI2, cos_PI2; ring). assert (cos (/ k * t - PI / 2) = sin (/ k * t)) as C1 by (rewrite cos_minus, sin_PI2, cos_PI2; ring).
    rewrite S1, C1. split; [|split].
    - apply lim_eq with (g * k * (cos (/ k * t) * / k)); [field; exact Hk|]. apply (lim_scal (fun t => sin (/ k * t))). apply lim_sin_lin.
    - apply lim_eq with (g * (k * k) / 4 * (2 * / k - cos (2 * / k * t) * (2 * / k))).
      + replace (2 * / k * t) with (2 * (/ k * t)) by ring. rewrite cos_2a_sin. field. exact Hk.
      + apply (lim_scal (fun t => 2 * / k * t - sin (2 * / k * t))). apply (lim_minus (fun t => 2 * / k * t)); [apply lim_lin|apply lim_sin_lin].
    - apply lim_eq with (- (g * (k * k) / 4 * (0 - - sin (2 * / k * t) * (2 * / k)))).
      + replace (2 * / k * t) with (2 * (/ k * t)) by ring. rewrite sin_2a. field. exact Hk.
      + apply (derivable_pt_lim_opp (fun t => g * (k * k) / 4 * (1 - cos (2 * / k * t)))). apply (lim_scal (fun t => 1 - cos (2 * / k * t))). apply (lim_minus (fun _ => 1)); [apply derivable_pt_lim_const|apply lim_cos_lin]. }
  split; intros t _; [|intros _]; destruct (D t) as (A & B & C); [|auto]. split; [|split]; eapply cont_of_lim; eassumption.
Qed.

(** the numbers of the cycloid in terms of [k] *)
Lemma cycloid_numbers : forall g dx dy th2, 0 < g -> 0 < dx -> dy < 0 -> 0 < th2 -> cycloid_f dx dy th2 = 0 ->
  let r := - dy / (1 - cos th2) in let k := 2 * sqrt (r / g) in
  0 < 1 - cos th2 /\ 0 < r /\ 0 < k /\ g * (k * k) / 4 = r /\ th2 * sqrt (r / g) = k * (th2 / 2) /\ dx = r * (th2 - sin th2) /\ dy = - (r * (1 - cos th2)).
Proof.
  intros g dx dy th2 Hg Hx Hy Ht E r k. unfold cycloid_f in E. pose proof (sin_lt_x th2 Ht) as Hs. assert (0 < - dy / dx) as P by (apply Rdiv_lt_0_compat; lra).
  assert (1 - cos th2 = - dy / dx * (th2 - sin th2)) as E1. { replace (- dy / dx) with ((1 - cos th2) / (th2 - sin th2)) by lra. field. lra. }
  assert (0 < 1 - cos th2) as H1 by (rewrite E1; apply Rmult_lt_0_compat; lra). assert (0 < r) as Hr by (apply Rdiv_lt_0_compat; lra).
  assert (0 < r / g) as Hrg by (apply Rdiv_lt_0_compat; lra). pose proof (sqrt_lt_R0 _ Hrg) as Sq. pose proof (sqrt_sqrt (r / g) ltac:(lra)) as SS.
  split; [exact H1|]. split; [exact Hr|]. split; [unfold k; lra|]. split; [|split; [|split]].
  - unfold k. replace (g * (2 * sqrt (r / g) * (2 * sqrt (r / g))) / 4) with (g * (sqrt (r / g) * sqrt (r / g))) by field. rewrite SS. field. lra.
  - unfold k. field.
  - unfold r. replace (1 - cos th2) with (- dy / dx * (th2 - sin th2)) by lra. field. split; [|split]; lra.
  - unfold r. field. lra.
Qed.

(** every root of [f] that the root finder may return gives a ride that exists, through the points returned *)
Theorem C59_cycloid : forall g dx dy N th2, 0 < g -> 0 < dx -> dy < 0 -> 0 < th2 -> cycloid_f dx dy th2 = 0 -> (2 <= N)%nat ->
  let '(xs, ys, Tc) := cycloid dx dy N g th2 in
  List.length xs = N /\ List.length ys = N /\
  exists th v x y, descends g dx dy Tc th v x y /\ (th2 < 2 * PI -> forall t, 0 <= t <= Tc -> - PI / 2 <= th t <= PI / 2) /\
    forall i, (i < N)%nat -> let t := INR i / (INR N - 1) * Tc in 0 <= t <= Tc /\ x t = nth i xs 0 /\ y t = nth i ys 0.
Proof.
  intros g dx dy N th2 Hg Hx Hy Ht E HN. unfold cycloid. destruct (cycloid_numbers g dx dy th2 Hg Hx Hy Ht E) as (H1 & Hr & Hk & Er & ET & EX & EY).
  set (r := - dy / (1 - cos th2)) in *. set (k := 2 * sqrt (r / g)) in *. rewrite ET.
  assert (linspace 0 th2 N = map (fun i => 0 + INR i * ((th2 - 0) / (INR N - 1))) (seq 0 N)) as EL by (destruct N as [|[|N]]; [lia|lia|reflexivity]).
  rewrite EL, !map_map, !map_length, seq_length. split; [reflexivity|]. split; [reflexivity|].
  assert (forall t, 2 * / k * (k * (t / 2)) = t) as Ek by (intros; field; lra).
  assert (0 < k * (th2 / 2)) as HT by (apply Rmult_lt_0_compat; lra).
  assert (0 < INR N - 1) as HN1. { assert (2 <= INR N) by (change 2 with (INR 2); now apply le_INR). lra. }
  exists (fun t => / k * t - PI / 2), (fun t => g * k * sin (/ k * t)), (fun t => g * (k * k) / 4 * (2 * / k * t - sin (2 * / k * t))), (fun t => - (g * (k * k) / 4 * (1 - cos (2 * / k * t)))).
  split; [|split].
  - split; [lra|]. split; [apply rides_motion; exists []; apply rolling; lra|]. rewrite !Rmult_0_r, sin_0, cos_0, Ek, Er. repeat split; try ring; lra.
  - intros H2 t Htt. assert (0 <= / k * t) by (apply Rmult_le_pos; [left; now apply Rinv_0_lt_compat|lra]).
    assert (/ k * t <= th2 / 2). { replace (th2 / 2) with (/ k * (k * (th2 / 2))) by (field; lra). apply Rmult_le_compat_l; [left; now apply Rinv_0_lt_compat|lra]. } lra.
  - intros i Hi. set (t := INR i / (INR N - 1) * (k * (th2 / 2))).
    assert (0 <= INR i / (INR N - 1) <= 1) as Hf.
    { split; [unfold Rdiv; apply Rmult_le_pos; [apply pos_INR|left; now apply Rinv_0_lt_compat]|]. apply Rmult_le_reg_r with (INR N - 1); [exact HN1|]. unfold Rdiv. rewrite Rmult_assoc, Rinv_l by lra. assert (INR i + 1 <= INR N) by (rewrite <- S_INR; apply le_INR; lia). lra. }
    split; [|].
    { unfold t. split; [apply Rmult_le_pos; lra|]. rewrite <- (Rmult_1_l (k * (th2 / 2))) at 2. apply Rmult_le_compat_r; lra. }
    assert (2 * / k * t = 0 + INR i * ((th2 - 0) / (INR N - 1))) as Et by (unfold t; field; split; lra).
    rewrite Er, Et.
    split.
    + rewrite (nth_indep _ 0 ((fun i => r * (0 + INR i * ((th2 - 0) / (INR N - 1)) - sin (0 + INR i * ((th2 - 0) / (INR N - 1))))) 0%nat)) by (rewrite map_length, seq_length; exact Hi). rewrite (map_nth (fun i => r * (0 + INR i * ((th2 - 0) / (INR N - 1)) - sin (0 + INR i * ((th2 - 0) / (INR N - 1)))))). rewrite seq_nth by exact Hi. reflexivity.
    + rewrite (nth_indep _ 0 ((fun i => - (r * (1 - cos (0 + INR i * ((th2 - 0) / (INR N - 1)))))) 0%nat)) by (rewrite map_length, seq_length; exact Hi). rewrite (map_nth (fun i => - (r * (1 - cos (0 + INR i * ((th2 - 0) / (INR N - 1))))))). rewrite seq_nth by exact Hi. reflexivity.
Qed.
Print Assumptions C59_cycloid.

(** no ride of the model, with any slope as a function of time (jumps included), is faster than the first arch of the cycloid *)
Theorem C59_fastest : forall g dx dy N th2, 0 < g -> 0 < dx -> dy < 0 -> first_arch dx dy th2 ->
  forall T th v x y, descends g dx dy T th v x y -> snd (cycloid dx dy N g th2) <= T.
Proof.
  intros g dx dy N th2 Hg Hx Hy [[Ht H2] E] T th v x y (HT0 & HR & V0 & X0 & Y0 & XT & YT). cbn [cycloid snd].
  destruct (cycloid_numbers g dx dy th2 Hg Hx Hy Ht E) as (H1 & Hr & Hk & Er & ET & EX & EY). cbn [snd].
  set (r := - dy / (1 - cos th2)) in *. set (k := 2 * sqrt (r / g)) in *. rewrite ET. apply rides_motion in HR. destruct HR as (br & HM).
  destruct (Rle_dec (k * (th2 / 2)) T) as [H|H]; [exact H|exfalso]. apply Rnot_le_lt in H.
  assert (0 < T) as HT. { destruct (Rle_lt_or_eq_dec 0 T HT0) as [P|P]; [exact P|]. rewrite <- P, Y0 in YT. lra. }
  assert (k * (th2 / 2) < k * PI) as HkP by (apply Rmult_lt_compat_l; lra).
  pose proof (reach_bound g T br th v x y Hg HM V0 X0 Y0 k Hk HT ltac:(lra)) as B. rewrite XT, YT in B.
  assert (dy * (cos (/ k * T) / sin (/ k * T)) <= dy * (cos (/ k * (k * (th2 / 2))) / sin (/ k * (k * (th2 / 2))))) as M.
  { apply (mono [] (fun t => dy * (cos (/ k * t) / sin (/ k * t))) (fun t => dy * (- / k * / (sin (/ k * t) * sin (/ k * t))))); [lra| |].
    - intros c Hc. eapply cont_of_lim. apply (lim_scal (fun t => cos (/ k * t) / sin (/ k * t))). apply (cot_lim (k * (th2 / 2)) k Hk HkP). lra.
    - intros c Hc _. split; [apply (lim_scal (fun t => cos (/ k * t) / sin (/ k * t))); apply (cot_lim (k * (th2 / 2)) k Hk HkP); lra|].
      assert (0 < sin (/ k * c)) as P. { pose proof (angle (k * (th2 / 2)) k Hk HkP c ltac:(lra)). apply sin_gt_0; lra. }
      pose proof (Rinv_0_lt_compat k Hk). assert (0 < / (sin (/ k * c) * sin (/ k * c))) by (apply Rinv_0_lt_compat; apply Rmult_lt_0_compat; exact P).
      replace (dy * (- / k * / (sin (/ k * c) * sin (/ k * c)))) with (- dy * (/ k * / (sin (/ k * c) * sin (/ k * c)))) by ring. apply Rmult_le_pos; [lra|]. apply Rmult_le_pos; lra. }
  replace (/ k * (k * (th2 / 2))) with (th2 / 2) in M by (field; lra). set (u := th2 / 2) in *. assert (th2 = 2 * u) as Eu by (unfold u; field).
  assert (0 < sin u) as Pu by (apply sin_gt_0; unfold u; lra).
  assert (dy * (cos u / sin u) = - r * sin th2) as Ec. { rewrite EY. rewrite Eu. rewrite cos_2a_sin, sin_2a. field. lra. }
  assert (g * (k / 2) * (k * u) = r * th2) as Ed. { rewrite <- Er, Eu. field. }
  assert (g * (k / 2) * T < g * (k / 2) * (k * u)) by (apply Rmult_lt_compat_l; [apply Rmult_lt_0_compat; lra|exact H]).
  rewrite EX in B. rewrite Rmult_minus_distr_l in B. lra.
Qed.
Print Assumptions C59_fastest.

(** the first arch exists for every end point to the right and below *)
Theorem C59_first_arch_exists : forall dx dy, 0 < dx -> dy < 0 -> exists th2, first_arch dx dy th2.
Proof.
  intros dx dy Hx Hy. set (h := fun t => - dy * (t - sin t) - dx * (1 - cos t)).
  assert (continuity h) as C. { intro t. unfold h. apply cont_minus; [apply (cont_scal (fun t => t - sin t)); apply cont_minus; [apply derivable_continuous_pt, derivable_pt_id|apply continuity_sin]|apply (cont_scal (fun t => 1 - cos t)); apply cont_minus; [apply derivable_continuous_pt, derivable_pt_const|apply continuity_cos]]. }
  pose proof PI_RGT_0 as HP. set (e := Rmin (PI / 2) (dx / (- dy) / 2)). assert (0 < dx / - dy) as Pd by (apply Rdiv_lt_0_compat; lra).
  assert (0 < e) as He by (apply Rmin_glb_lt; lra). assert (e <= PI / 2) as He2 by apply Rmin_l. assert (e <= dx / - dy / 2) as He3 by apply Rmin_r.
  assert (h e < 0) as Hl.
  { unfold h. pose proof (ucos e ltac:(lra)) as U. assert (0 < 1 - cos e). { replace e with (2 * (e / 2)) by field. rewrite cos_2a_sin. assert (0 < sin (e / 2)) by (apply sin_gt_0; lra). nra. }
    apply Rle_lt_trans with (- dy * (e * (1 - cos e)) - dx * (1 - cos e)); [apply Rplus_le_compat_r, Rmult_le_compat_l; lra|].
    replace (- dy * (e * (1 - cos e)) - dx * (1 - cos e)) with (- ((dx - - dy * e) * (1 - cos e))) by ring. apply Ropp_lt_gt_0_contravar. apply Rmult_lt_0_compat; [|assumption].
    assert (- dy * e <= dx / 2). { replace (dx / 2) with (- dy * (dx / - dy / 2)) by (field; lra). apply Rmult_le_compat_l; lra. } lra. }
  assert (0 < h (2 * PI)) as Hr. { unfold h. rewrite sin_2PI, cos_2PI. assert (0 < - dy * (2 * PI)) by (apply Rmult_lt_0_compat; lra). lra. }
  destruct (IVT h e (2 * PI) C ltac:(lra) Hl Hr) as (z & Hz & Ez). exists z. assert (z <> 2 * PI) by (intros ->; lra). split; [lra|].
  unfold cycloid_f. unfold h in Ez. pose proof (sin_lt_x z ltac:(lra)). replace (1 - cos z) with (- dy * (z - sin z) / dx). { field. split; lra. } apply Rmult_eq_reg_l with dx; [|lra]. field_simplify; lra.
Qed.
Print Assumptions C59_first_arch_exists.

(** whatever positive root the root finder returns, its time is never below the true one *)
Corollary C59_root_upper_bound : forall g dx dy N N' th2 root, 0 < g -> 0 < dx -> dy < 0 -> first_arch dx dy th2 -> 0 < root -> cycloid_f dx dy root = 0 -> (2 <= N')%nat ->
  snd (cycloid dx dy N g th2) <= snd (cycloid dx dy N' g root).
Proof.
  intros g dx dy N N' th2 root Hg Hx Hy HA Hr HE HN. pose proof (C59_cycloid g dx dy N' root Hg Hx Hy Hr HE HN) as H.
  destruct (cycloid dx dy N' g root) as [[xs ys] Tc] eqn:EC. destruct H as (_ & _ & th & v & x & y & HD & _). cbn [snd]. exact (C59_fastest g dx dy N th2 Hg Hx Hy HA Tc th v x y HD).
Qed.
Print Assumptions C59_root_upper_bound.

(** FINDING: a root of [f] need not be the right one: for end points far to the right [f] has roots on later arches, and their time is longer *)
Theorem C59_root_refuted : forall g N N' th2, 0 < g -> first_arch (3 * PI) (-2) th2 ->
  cycloid_f (3 * PI) (-2) (3 * PI) = 0 /\ snd (cycloid (3 * PI) (-2) N g th2) < snd (cycloid (3 * PI) (-2) N' g (3 * PI)).
Proof.
  intros g N N' th2 Hg HA. pose proof PI2_3_2 as P3. pose proof PI_4 as P4.
  assert (cos (3 * PI) = -1) as C3 by (replace (3 * PI) with (PI + 2 * PI) by ring; rewrite cos_plus, cos_2PI, sin_2PI, cos_PI, sin_PI; ring).
  assert (sin (3 * PI) = 0) as S3 by (replace (3 * PI) with (PI + 2 * PI) by ring; rewrite sin_plus, cos_2PI, sin_2PI, cos_PI, sin_PI; ring).
  assert (cycloid_f (3 * PI) (-2) (3 * PI) = 0) as E3 by (unfold cycloid_f; rewrite C3, S3; field; lra). split; [exact E3|].
  pose proof (C59_root_upper_bound g (3 * PI) (-2) N 2 th2 (3 * PI) Hg ltac:(lra) ltac:(lra) HA ltac:(lra) E3 (Nat.le_refl 2)) as LE.
  assert (snd (cycloid (3 * PI) (-2) 2 g (3 * PI)) = snd (cycloid (3 * PI) (-2) N' g (3 * PI))) as EN by reflexivity. rewrite EN in LE. destruct LE as [L|EQ]; [exact L|exfalso].
  destruct HA as [[H0 H2] E]. destruct (cycloid_numbers g (3 * PI) (-2) th2 Hg ltac:(lra) ltac:(lra) H0 E) as (H1 & Hr & Hk & Er & ET & EX & EY).
  cbn [cycloid snd] in EQ. rewrite C3 in EQ. set (r := - -2 / (1 - cos th2)) in *.
  assert (0 < r / g) as Q1 by (apply Rdiv_lt_0_compat; lra). assert (- -2 / (1 - -1) = 1) as R1 by field. rewrite R1 in EQ. assert (0 < 1 / g) as Q2 by (apply Rdiv_lt_0_compat; lra).
  assert (th2 * th2 * r = 9 * (PI * PI)) as SQ.
  { assert (th2 * sqrt (r / g) * (th2 * sqrt (r / g)) = 3 * PI * sqrt (1 / g) * (3 * PI * sqrt (1 / g))) as X by (rewrite EQ; reflexivity).
    replace (th2 * sqrt (r / g) * (th2 * sqrt (r / g))) with (th2 * th2 * (sqrt (r / g) * sqrt (r / g))) in X by ring. replace (3 * PI * sqrt (1 / g) * (3 * PI * sqrt (1 / g))) with (9 * (PI * PI) * (sqrt (1 / g) * sqrt (1 / g))) in X by ring.
    rewrite !sqrt_sqrt in X by lra. apply Rmult_eq_reg_r with (/ g); [|apply Rinv_neq_0_compat; lra]. unfold Rdiv in X. lra. }
  set (u := th2 / 2). assert (th2 = 2 * u) as Eu by (unfold u; field). assert (0 < u < PI) as Hu by (unfold u; lra). assert (0 < sin u) as Su by (apply sin_gt_0; lra).
  assert (r * (sin u * sin u) = 1) as RS. { replace (1 - cos th2) with (2 * sin u * sin u) in EY by (rewrite Eu, cos_2a_sin; ring). lra. }
  assert (2 * u = 3 * PI * sin u) as US.
  { assert ((2 * u) * (2 * u) = (3 * PI * sin u) * (3 * PI * sin u)) as X.
    { transitivity (th2 * th2 * r * (sin u * sin u)); [rewrite Eu; rewrite <- (Rmult_1_r (2 * u * (2 * u))) at 1; rewrite <- RS; ring|rewrite SQ; ring]. }
    apply Rsqr_inj; [lra|apply Rmult_le_pos; lra|exact X]. }
  assert (2 * u - 2 * sin u * cos u = 3 * PI * (sin u * sin u)) as X1.
  { rewrite <- Eu. replace (2 * sin u * cos u) with (sin th2) by (rewrite Eu; apply sin_2a). rewrite EX. rewrite <- (Rmult_1_r (th2 - sin th2)) at 1. rewrite <- RS. ring. }
  rewrite US in X1. assert (3 * PI - 2 * cos u = 3 * PI * sin u) as X2 by (apply Rmult_eq_reg_l with (sin u); [|lra]; lra).
  pose proof (sin2_cos2 u) as SC. unfold Rsqr in SC. set (s := sin u) in *. set (c := cos u) in *.
  assert (2 * c = 3 * PI * (1 - s)) as X3 by lra. assert (s <= 1) as S1 by apply SIN_bound.
  assert (9 * (PI * PI) * (1 - s) * (1 - s) = 4 * (1 - s) * (1 + s)) as X4. { transitivity ((2 * c) * (2 * c)); [rewrite X3; ring|]. replace (4 * (1 - s) * (1 + s)) with (4 * (1 - s * s)) by ring. replace (1 - s * s) with (c * c) by lra. ring. }
  assert (s < 2 / 3) as S2. { apply Rmult_lt_reg_l with (3 * PI); lra. }
  assert (9 * (PI * PI) * (1 - s) = 4 * (1 + s)) as X5 by (apply Rmult_eq_reg_l with (1 - s); lra).
  assert (9 <= PI * PI) by nra. assert (9 * 9 * (1 - s) <= 9 * (PI * PI) * (1 - s)) by (apply Rmult_le_compat_r; lra). lra.
Qed.
Print Assumptions C59_root_refuted.

(** the end point (pi, -2) is the lowest point of a cycloid *)
Example C59_nonvacuous : first_arch PI (-2) PI /\ snd (cycloid PI (-2) 3 1 PI) = PI.
Proof.
  pose proof PI_RGT_0. split; [split; [lra|]|].
  - unfold cycloid_f. rewrite cos_PI, sin_PI. field. lra.
  - cbn [cycloid snd]. rewrite cos_PI. replace (- -2 / (1 - -1) / 1) with 1 by field. rewrite sqrt_1. ring.
Qed.
