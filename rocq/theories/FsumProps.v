(** C64: the constraints, derivatives and continuity defects as computed in double precision. *)
From Verif Require Import Base RBase MeshModel FloatModel FloatSpec FloatProofs FloatProofs2 FloatProofs3 FloatProofs5 FsumModel FsumSpec FsumProofs FsumProofs2 FsumProofs3.
From Flocq Require Import Core.
From Coq Require Import Lra Lia Permutation.
Open Scope R_scope.
Local Existing Instance prec53.
Local Existing Instance dexp_valid.
Local Existing Instance dexp_mono.
Local Existing Instance dexp_ne.

(** Specification: the calls a user makes on a constraint object, in any order, any number of times. *)
Inductive setting := SetInput (s : list R) | SetCon (c : list R).
(** the last input scales, the last constraint scales of a history; 1 if there are none *)
Fixpoint last_in (h : list setting) (d : list R) : list R :=
  match h with [] => d | SetInput s :: r => last_in r s | SetCon _ :: r => last_in r d end.
Fixpoint last_con (h : list setting) (d : list R) : list R :=
  match h with [] => d | SetCon c :: r => last_con r c | SetInput _ :: r => last_con r d end.
(** the object after the calls *)
Definition after (jr jc hr hc : list nat) (h : list setting) (o : fscales) : fscales :=
  fold_left (fun o c => match c with SetInput s => fs_set_input jr jc hr hc o s | SetCon c => fs_set_con jr jc o c end) h o.

Lemma after_state : forall jr jc hr hc h o,
  fs_jac o = fl_jac_scales (fs_in o) (fs_con o) jr jc -> fs_hess o = fl_hess_scales (fs_in o) hr hc ->
  fs_in (after jr jc hr hc h o) = last_in h (fs_in o) /\ fs_con (after jr jc hr hc h o) = last_con h (fs_con o) /\
  fs_jac (after jr jc hr hc h o) = fl_jac_scales (last_in h (fs_in o)) (last_con h (fs_con o)) jr jc /\
  fs_hess (after jr jc hr hc h o) = fl_hess_scales (last_in h (fs_in o)) hr hc.
Proof.
  intros jr jc hr hc. induction h as [|c h IH]; intros o HJ HH; [cbn; auto|].
  destruct c as [s|c]; cbn [after fold_left last_in last_con].
  - apply (IH (fs_set_input jr jc hr hc o s)); reflexivity.
  - apply (IH (fs_set_con jr jc o c)); [reflexivity|exact HH].
Qed.

Lemma nth_err0 : forall v i b, (i < List.length v)%nat -> nth i v b = nth i v 0.
Proof. intros. apply nth_indep. assumption. Qed.

(** Whatever scales were set before, in whatever order and how often: the constraints, the jacobian and
    the hessian that the solver gets at x are those of the user's functions at one and the same point
    pt, x multiplied by the last input scales and rounded, with the multipliers divided by the last
    constraint scales and rounded; and each entry carries the last scales with a relative error of at
    most 1, 3 and 4 roundoffs. *)
Theorem C64_callbacks : forall nin ncon jr jc hr hc h f J H x lam,
  let o := after jr jc hr hc h (fs_new nin ncon jr jc hr hc) in
  let s := last_in h (repeat 1 nin) in let c := last_con h (repeat 1 ncon) in
  List.length s = nin -> List.length c = ncon -> List.length x = nin -> List.length lam = ncon ->
  List.length jc = List.length jr -> List.length hc = List.length hr ->
  (forall j, (j < nin)%nat -> fair (nth j s 0)) -> (forall i, (i < ncon)%nat -> fair (nth i c 0)) ->
  (forall r, In r jr -> (r < ncon)%nat) -> (forall r, In r jc \/ In r hr \/ In r hc -> (r < nin)%nat) ->
  exists pt mu,
  List.length pt = nin /\ (forall j, (j < nin)%nat -> nearest (nth j x 0 * nth j s 0) (nth j pt 0)) /\
  List.length mu = ncon /\ (forall i, (i < ncon)%nat -> nearest (nth i lam 0 / nth i c 0) (nth i mu 0)) /\
  (List.length (f pt) = ncon ->
     let r := fl_constraints f (fs_in o) (fs_con o) x in
     List.length r = ncon /\
     forall i, (i < ncon)%nat ->
       let e := nth i (f pt) 0 / nth i c 0 in
       nearest e (nth i r 0) /\ (sane (nth i (f pt) 0) -> Rabs (nth i r 0 - e) <= uro * Rabs e)) /\
  (List.length (J pt) = List.length jr ->
     let r := fl_jacobian J (fs_in o) (fs_jac o) x in
     List.length r = List.length jr /\
     forall k, (k < List.length jr)%nat -> sane (nth k (J pt) 0) ->
       let e := nth k (J pt) 0 * nth (nth k jc 0%nat) s 0 / nth (nth k jr 0%nat) c 0 in
       Rabs (nth k r 0 - e) <= 3 * uro * Rabs e) /\
  (List.length (H pt mu) = List.length hr ->
     let r := fl_hessian H (fs_in o) (fs_con o) (fs_hess o) x lam in
     List.length r = List.length hr /\
     forall k, (k < List.length hr)%nat -> sane (nth k (H pt mu) 0) ->
       let e := nth k (H pt mu) 0 * (nth (nth k hr 0%nat) s 0 * nth (nth k hc 0%nat) s 0) in
       Rabs (nth k r 0 - e) <= 4 * uro * Rabs e).
Proof.
  intros nin ncon jr jc hr hc h f J H x lam o s c Ls Lc Lx Ll Ljc Lhc Fs Fc Hr Hc.
  destruct (after_state jr jc hr hc h (fs_new nin ncon jr jc hr hc) eq_refl eq_refl) as [E1 [E2 [E3 E4]]].
  cbn [fs_new fs_in fs_con] in E1, E2, E3, E4. fold o s c in E1, E2, E3, E4. rewrite E1, E2, E3, E4.
  exists (map2 fmul x s), (map2 fdiv lam c).
  split; [rewrite map2_length; congruence|]. split.
  { intros j Hj. rewrite (map2_nth _ _ _ _ _ _ j 0 0) by (congruence || lia). apply fl_nearest. }
  split; [rewrite map2_length; congruence|]. split.
  { intros i Hi. rewrite (map2_nth _ _ _ _ _ _ i 0 0) by (congruence || lia). apply fl_nearest. }
  split; [|split].
  - intros Lf. cbv zeta. unfold fl_constraints. split; [rewrite map2_length; congruence|].
    intros i Hi. rewrite (map2_nth _ _ _ _ _ _ i 0 0) by (congruence || lia). split; [apply fl_nearest|].
    intros Hv. apply con_entry; auto.
  - intros LJ. cbv zeta. assert (LS : List.length (fl_jac_scales s c jr jc) = List.length jr) by (unfold fl_jac_scales; apply map2_length; congruence).
    unfold fl_jacobian. split; [rewrite map2_length; congruence|].
    intros k Hk Hv. rewrite (map2_nth _ _ _ _ _ _ k 0 0) by (congruence || lia).
    unfold fl_jac_scales. rewrite (map2_nth _ _ _ _ _ _ k 0%nat 0%nat) by (congruence || lia).
    apply jac_entry; [exact Hv|apply Fc, Hr, nth_In; lia|apply Fs, Hc; left; apply nth_In; lia].
  - intros LH. cbv zeta. assert (LS : List.length (fl_hess_scales s hr hc) = List.length hr) by (unfold fl_hess_scales; apply map2_length; congruence).
    unfold fl_hessian. split; [rewrite map2_length; congruence|].
    intros k Hk Hv. rewrite (map2_nth _ _ _ _ _ _ k 0 0) by (congruence || lia).
    unfold fl_hess_scales. rewrite (map2_nth _ _ _ _ _ _ k 0%nat 0%nat) by (congruence || lia).
    apply hess_entry; [exact Hv|apply Fs, Hc; right; left; apply nth_In; lia|apply Fs, Hc; right; right; apply nth_In; lia].
Qed.
Print Assumptions C64_callbacks.

(** The same for an objective: its value is exactly the user's function at pt, the gradient is within
    one roundoff. *)
Theorem C64_objective : forall n f g s x,
  List.length s = n -> List.length x = n -> (forall j, (j < n)%nat -> fair (nth j s 0)) ->
  exists pt,
  List.length pt = n /\ (forall j, (j < n)%nat -> nearest (nth j x 0 * nth j s 0) (nth j pt 0)) /\
  fl_objective f s x = f pt /\
  (List.length (g pt) = n ->
     List.length (fl_gradient g s x) = n /\
     forall j, (j < n)%nat -> sane (nth j (g pt) 0) ->
       Rabs (nth j (fl_gradient g s x) 0 - nth j (g pt) 0 * nth j s 0) <= uro * Rabs (nth j (g pt) 0 * nth j s 0)).
Proof.
  intros n f g s x Ls Lx Fs. exists (map2 fmul x s). split; [rewrite map2_length; congruence|]. split.
  { intros j Hj. rewrite (map2_nth _ _ _ _ _ _ j 0 0) by (congruence || lia). apply fl_nearest. }
  split; [reflexivity|]. intros Lg. unfold fl_gradient. split; [rewrite map2_length; congruence|].
  intros j Hj Hv. rewrite (map2_nth _ _ _ _ _ _ j 0 0) by (congruence || lia). apply mul_entry; auto.
Qed.
Print Assumptions C64_objective.

(** What the user gets back is bitwise the point at which the solver's last callbacks were evaluated:
    if the solver stops at y and [solve] returns sol, then the callbacks at y are the user's functions at
    sol. *)
Theorem C64_same_point : forall lb ub s guess y,
  let sol := fl_solve (fun _ _ _ => y) lb ub s guess in
  List.length s = List.length y ->
  (forall f, fl_objective f s y = f sol) /\
  (forall f c, List.length (f sol) = List.length c -> forall i, (i < List.length c)%nat ->
     nearest (nth i (f sol) 0 / nth i c 0) (nth i (fl_constraints f s c y) 0)) /\
  (forall g, List.length (g sol) = List.length s -> forall j, (j < List.length s)%nat ->
     nearest (nth j (g sol) 0 * nth j s 0) (nth j (fl_gradient g s y) 0)).
Proof.
  intros lb ub s guess y sol Ls. unfold sol, fl_solve. destruct (fl_scaled_bounds lb ub s) as [slb sub].
  split; [reflexivity|]. split.
  - intros f c Lf i Hi. unfold fl_constraints. rewrite (map2_nth _ _ _ _ _ _ i 0 0) by (congruence || lia). apply fl_nearest.
  - intros g Lg j Hj. unfold fl_gradient. rewrite (map2_nth _ _ _ _ _ _ j 0 0) by (congruence || lia). apply fl_nearest.
Qed.
Print Assumptions C64_same_point.

(** Scales that are powers of two change nothing at all: every entry is exact. *)
Theorem C64_pow2 : forall nin ncon jr jc hr hc h f J H x lam,
  let o := after jr jc hr hc h (fs_new nin ncon jr jc hr hc) in
  let s := last_in h (repeat 1 nin) in let c := last_con h (repeat 1 ncon) in
  let two_to := fun v => exists k, (-200 <= k <= 200)%Z /\ v = pow2 k in
  let exact := fun v => double v /\ sane v in
  List.length s = nin -> List.length c = ncon -> List.length x = nin -> List.length lam = ncon ->
  List.length jc = List.length jr -> List.length hc = List.length hr ->
  (forall j, (j < nin)%nat -> two_to (nth j s 0)) -> (forall i, (i < ncon)%nat -> two_to (nth i c 0)) ->
  (forall r, In r jr -> (r < ncon)%nat) -> (forall r, In r jc \/ In r hr \/ In r hc -> (r < nin)%nat) ->
  (forall j, (j < nin)%nat -> exact (nth j x 0)) -> (forall i, (i < ncon)%nat -> exact (nth i lam 0)) ->
  exists pt mu,
  List.length pt = nin /\ (forall j, (j < nin)%nat -> nth j pt 0 = nth j x 0 * nth j s 0) /\
  List.length mu = ncon /\ (forall i, (i < ncon)%nat -> nth i mu 0 = nth i lam 0 / nth i c 0) /\
  (List.length (f pt) = ncon -> forall i, (i < ncon)%nat -> exact (nth i (f pt) 0) ->
     nth i (fl_constraints f (fs_in o) (fs_con o) x) 0 = nth i (f pt) 0 / nth i c 0) /\
  (List.length (J pt) = List.length jr -> forall k, (k < List.length jr)%nat -> exact (nth k (J pt) 0) ->
     nth k (fl_jacobian J (fs_in o) (fs_jac o) x) 0 =
     nth k (J pt) 0 * nth (nth k jc 0%nat) s 0 / nth (nth k jr 0%nat) c 0) /\
  (List.length (H pt mu) = List.length hr -> forall k, (k < List.length hr)%nat -> exact (nth k (H pt mu) 0) ->
     nth k (fl_hessian H (fs_in o) (fs_con o) (fs_hess o) x lam) 0 =
     nth k (H pt mu) 0 * (nth (nth k hr 0%nat) s 0 * nth (nth k hc 0%nat) s 0)).
Proof.
  intros nin ncon jr jc hr hc h f J H x lam o s c two_to exact Ls Lc Lx Ll Ljc Lhc Fs Fc Hr Hc Ex El.
  destruct (after_state jr jc hr hc h (fs_new nin ncon jr jc hr hc) eq_refl eq_refl) as [E1 [E2 [E3 E4]]].
  cbn [fs_new fs_in fs_con] in E1, E2, E3, E4. fold o s c in E1, E2, E3, E4. rewrite E1, E2, E3, E4.
  exists (map2 fmul x s), (map2 fdiv lam c).
  split; [rewrite map2_length; congruence|]. split.
  { intros j Hj. rewrite (map2_nth _ _ _ _ _ _ j 0 0) by (congruence || lia).
    destruct (Fs j Hj) as [k [Hk ->]]. destruct (Ex j Hj) as [D V]. apply grad_pow2; auto. apply double_fmt; exact D. }
  split; [rewrite map2_length; congruence|]. split.
  { intros i Hi. rewrite (map2_nth _ _ _ _ _ _ i 0 0) by (congruence || lia).
    destruct (Fc i Hi) as [k [Hk ->]]. destruct (El i Hi) as [D V]. apply con_pow2; auto. apply double_fmt; exact D. }
  split; [|split].
  - intros Lf i Hi [D V]. unfold fl_constraints. rewrite (map2_nth _ _ _ _ _ _ i 0 0) by (congruence || lia).
    destruct (Fc i Hi) as [k [Hk ->]]. apply con_pow2; auto. apply double_fmt; exact D.
  - intros LJ k Hk [D V]. assert (LS : List.length (fl_jac_scales s c jr jc) = List.length jr) by (unfold fl_jac_scales; apply map2_length; congruence).
    unfold fl_jacobian. rewrite (map2_nth _ _ _ _ _ _ k 0 0) by (congruence || lia).
    unfold fl_jac_scales. rewrite (map2_nth _ _ _ _ _ _ k 0%nat 0%nat) by (congruence || lia).
    destruct (Fc (nth k jr 0%nat)) as [a [Ha ->]]; [apply Hr, nth_In; lia|].
    destruct (Fs (nth k jc 0%nat)) as [b [Hb ->]]; [apply Hc; left; apply nth_In; lia|].
    apply jac_pow2; auto. apply double_fmt; exact D.
  - intros LH k Hk [D V]. assert (LS : List.length (fl_hess_scales s hr hc) = List.length hr) by (unfold fl_hess_scales; apply map2_length; congruence).
    unfold fl_hessian. rewrite (map2_nth _ _ _ _ _ _ k 0 0) by (congruence || lia).
    unfold fl_hess_scales. rewrite (map2_nth _ _ _ _ _ _ k 0%nat 0%nat) by (congruence || lia).
    destruct (Fs (nth k hr 0%nat)) as [a [Ha ->]]; [apply Hc; right; left; apply nth_In; lia|].
    destruct (Fs (nth k hc 0%nat)) as [b [Hb ->]]; [apply Hc; right; right; apply nth_In; lia|].
    apply hess_pow2; auto. apply double_fmt; exact D.
Qed.
Print Assumptions C64_pow2.

Lemma fl_err : forall x, Rabs (fl x - x) <= uro * Rabs x + eta.
Proof.
  intros x. destruct (fl_abs x) as [e [h [He [Hh E]]]]. rewrite E.
  replace (x * (1 + e) + h - x) with (e * x + h) by ring. eapply Rle_trans; [apply Rabs_triang|]. rewrite Rabs_mult.
  apply Rplus_le_compat; [apply Rmult_le_compat_r; [apply Rabs_pos|exact He]|exact Hh].
Qed.

(** Without any scales set, the callbacks are the user's functions, exactly. *)
Lemma nth_repeat1 : forall n i, (i < n)%nat -> nth i (repeat 1 n) 0 = 1.
Proof. induction n; intros [|i] Hi; cbn; try lia; auto. apply IHn. lia. Qed.
Lemma map2_one : forall (op : R -> R -> R) (l : list R) n, (forall x, fmt x -> op x 1 = x) ->
  doubles l -> n = List.length l -> map2 op l (repeat 1 n) = l.
Proof.
  intros op l n Hop. revert n. induction l as [|a l IH]; intros n D ->; [reflexivity|].
  cbn [List.length repeat map2]. rewrite Hop by (apply double_fmt, D; left; reflexivity). f_equal.
  apply IH; [intros x Hx; apply D; right; exact Hx|reflexivity].
Qed.
Lemma jac_ones : forall n m rows cols, List.length cols = List.length rows ->
  (forall r, In r rows -> (r < m)%nat) -> (forall r, In r cols -> (r < n)%nat) ->
  fl_jac_scales (repeat 1 n) (repeat 1 m) rows cols = repeat 1 (List.length rows).
Proof.
  intros n m. induction rows as [|r rows IH]; intros [|c cols] L H1 H2; try discriminate; [reflexivity|].
  unfold fl_jac_scales in *. cbn [map2 List.length repeat]. rewrite !nth_repeat1 by (try apply H1; try apply H2; left; reflexivity).
  f_equal; [unfold fdiv; rewrite Rdiv_one; apply fl_id, fmt_1|].
  apply IH; [cbn in L; lia|intros; apply H1; right; auto|intros; apply H2; right; auto].
Qed.
Lemma hess_ones : forall n rows cols, List.length cols = List.length rows ->
  (forall r, In r rows -> (r < n)%nat) -> (forall r, In r cols -> (r < n)%nat) ->
  fl_hess_scales (repeat 1 n) rows cols = repeat 1 (List.length rows).
Proof.
  intros n. induction rows as [|r rows IH]; intros [|c cols] L H1 H2; try discriminate; [reflexivity|].
  unfold fl_hess_scales in *. cbn [map2 List.length repeat]. rewrite (nth_repeat1 n r) by (apply H1; left; reflexivity). rewrite (nth_repeat1 n c) by (apply H2; left; reflexivity).
  assert (O : fdiv 1 (fmul 1 1) = 1).
  { destruct (div_one 1 fmt_1) as [_ [_ [O1 O2]]]. rewrite O2. exact O1. }
  f_equal; [exact O|].
  apply IH; [cbn in L; lia|intros; apply H1; right; auto|intros; apply H2; right; auto].
Qed.

Theorem C64_unscaled : forall nin ncon jr jc hr hc f J H x lam,
  let o := fs_new nin ncon jr jc hr hc in
  List.length x = nin -> List.length lam = ncon -> doubles x -> doubles lam ->
  List.length jc = List.length jr -> List.length hc = List.length hr ->
  (forall r, In r jr -> (r < ncon)%nat) -> (forall r, In r jc \/ In r hr \/ In r hc -> (r < nin)%nat) ->
  (List.length (f x) = ncon -> doubles (f x) -> fl_constraints f (fs_in o) (fs_con o) x = f x) /\
  (List.length (J x) = List.length jr -> doubles (J x) -> fl_jacobian J (fs_in o) (fs_jac o) x = J x) /\
  (List.length (H x lam) = List.length hr -> doubles (H x lam) ->
   fl_hessian H (fs_in o) (fs_con o) (fs_hess o) x lam = H x lam).
Proof.
  intros nin ncon jr jc hr hc f J H x lam o Lx Ll Dx Dl Ljc Lhc Hr Hc. unfold o, fs_new. cbn [fs_in fs_con fs_jac fs_hess].
  rewrite jac_ones, hess_ones; auto.
  assert (D1 : forall v, fmt v -> fdiv v 1 = v) by (intros v F; apply (div_one v F)).
  assert (M1 : forall v, fmt v -> fmul v 1 = v) by (intros v F; apply (div_one v F)).
  unfold fl_constraints, fl_jacobian, fl_hessian.
  rewrite (map2_one fmul x nin) by auto. rewrite (map2_one fdiv lam ncon) by auto.
  repeat split; intros L D; apply map2_one; auto.
Qed.
Print Assumptions C64_unscaled.

(** the size of the numbers a continuity constraint adds up *)
Definition cont_size (A B xs xd : list R) (T : R) : R :=
  rsum (map2 (fun a x => Rabs (a * x)) A xs) + Rabs T * rsum (map2 (fun b v => Rabs (b * v)) B xd).
(** what underflow can add: at most 2^-1073 times this *)
Definition cont_under (m : nat) (B xd : list R) : R :=
  2 * INR m + rsum (map2 (fun b v => Rabs b * (2 * Rabs v + 1)) B xd).

(** A continuity constraint computed in double precision, whatever the order and grouping of the sums and
    with or without fused multiply-add, differs from the exact one by at most (m + 4) roundoffs of the
    size of the numbers added, m the number of stages of an interval. *)
Theorem C64_continuity : forall A B xs xd len scale r m,
  List.length A = m -> List.length B = m -> List.length xs = m -> List.length xd = m -> INR m <= 1000000 ->
  fl_continuity A B xs xd len scale r ->
  double r /\
  Rabs (r - (vdot A xs - len * scale * vdot B xd)) <=
    (INR m + 4) * uro * cont_size A B xs xd (len * scale) + pow2 (-1073) * cont_under m B xd.
Proof.
  intros A B xs xd len scale r m LA LB Lx Ld Hm H. split.
  - destruct H as [p [q [_ [_ ->]]]]. apply double_fmt, fl_fmt.
  - apply (continuity_err A B xs xd len scale r m); assumption.
Qed.
Print Assumptions C64_continuity.

(** The solver stops at y with the computed, scaled defect below tol; then the exact defect at the point
    the user gets is below the tolerance in the user's units, plus the roundoff of the defect itself.
    The defect r is any entry of the user's constraints, computed from the states and derivatives at the
    returned point. *)
Theorem C64_tolerance : forall lb ub s guess y c f tol A B xs xd len scale m i,
  let sol := fl_solve (fun _ _ _ => y) lb ub s guess in
  List.length s = List.length y -> List.length (f sol) = List.length c -> (i < List.length c)%nat -> 0 < nth i c 0 ->
  Rabs (nth i (fl_constraints f s c y) 0) <= tol ->
  List.length A = m -> List.length B = m -> List.length xs = m -> List.length xd = m -> INR m <= 1000000 ->
  fl_continuity A B xs xd len scale (nth i (f sol) 0) ->
  Rabs (vdot A xs - len * scale * vdot B xd) <=
    nth i c 0 * (tol + pow2 (-1075)) * (1 + 2 * uro)
    + (INR m + 4) * uro * cont_size A B xs xd (len * scale) + pow2 (-1073) * cont_under m B xd.
Proof.
  intros lb ub s guess y c f tol A B xs xd len scale m i sol Ls Lf Hi Hc Ht LA LB Lx Ld Hm H.
  pose proof (C64_continuity A B xs xd len scale _ m LA LB Lx Ld Hm H) as [_ E].
  set (v := nth i (f sol) 0) in *. set (ci := nth i c 0) in *.
  assert (Q : nth i (fl_constraints f s c y) 0 = fl (v / ci)).
  { unfold fl_constraints. unfold v, sol, fl_solve in *. destruct (fl_scaled_bounds lb ub s) as [slb sub].
    rewrite (map2_nth _ _ _ _ _ _ i 0 0) by (congruence || lia). reflexivity. }
  rewrite Q in Ht. pose proof (fl_err (v / ci)) as Er. pose proof uro_pos as U. pose proof eta_pos as ET.
  assert (B1 : Rabs (v / ci) * (1 - uro) <= tol + eta).
  { pose proof (Rabs_triang_inv (v / ci) (v / ci - fl (v / ci))) as T.
    replace (v / ci - (v / ci - fl (v / ci))) with (fl (v / ci)) in T by ring.
    rewrite <- (Rabs_Ropp (v / ci - _)) in T. replace (- (v / ci - fl (v / ci))) with (fl (v / ci) - v / ci) in T by ring. lra. }
  assert (B2 : Rabs (v / ci) <= (tol + eta) * (1 + 2 * uro)).
  { assert (T0 : 0 <= tol + eta) by (pose proof (Rabs_pos (fl (v / ci))); lra).
    assert (U2 : uro <= / 4) by (unfold uro; lra).
    apply Rmult_le_reg_r with (1 - uro); [lra|]. eapply Rle_trans; [exact B1|].
    rewrite Rmult_assoc. rewrite <- (Rmult_1_r (tol + eta)) at 1. apply Rmult_le_compat_l; [exact T0|]. nra. }
  assert (B3 : Rabs v <= ci * (tol + eta) * (1 + 2 * uro)).
  { replace v with (ci * (v / ci)) by (field; lra). rewrite Rabs_mult, (Rabs_pos_eq ci), Rmult_assoc by lra.
    apply Rmult_le_compat_l; lra. }
  unfold eta in B3. set (d := vdot A xs - len * scale * vdot B xd) in *.
  replace d with (v - (v - d)) by ring. eapply Rle_trans; [apply Rabs_triang|]. rewrite Rabs_Ropp. lra.
Qed.
Print Assumptions C64_tolerance.

(** The result does depend on the order of summation: two runs of the same code, on two machines or with
    two versions of a library, may see different defects, one zero and one not. *)
Theorem C64_order_refuted : exists A B xs xd r1 r2,
  A = [1; 1; 1; -1] /\ xs = [1; pow2 (-53); pow2 (-53); 1] /\ B = [0; 0; 0; 0] /\ xd = [0; 0; 0; 0] /\
  fl_continuity A B xs xd 1 1 r1 /\ fl_continuity A B xs xd 1 1 r2 /\ r1 = 0 /\ r2 = pow2 (-52).
Proof.
  assert (P53 : pow2 (-53) = / 9007199254740992) by (rewrite pow2_bpow; cbn; lra).
  assert (P52 : pow2 (-52) = / 4503599627370496) by (rewrite pow2_bpow; cbn; lra).
  set (u := pow2 (-53)) in *.
  assert (Fu : fmt u) by (unfold u; rewrite pow2_bpow; apply fmt_bpow; lia).
  assert (F2 : fmt (pow2 (-52))) by (rewrite pow2_bpow; apply fmt_bpow; lia).
  assert (F1 : fmt 1) by apply fmt_1.
  assert (FM : fmt (-1)) by (apply (generic_format_opp radix2 dexp 1), F1).
  assert (T : fl (1 + u) = 1).
  { rewrite (fl_tie (1 + u) (2 ^ 52) (-52)); [change (Z.even (2 ^ 52)) with true; cbn; lra|lia|lia|]. rewrite P53. cbn. lra. }
  assert (S2 : fl (u + u) = pow2 (-52)) by (replace (u + u) with (pow2 (-52)) by lra; apply fl_id, F2).
  assert (S1 : fl (1 + pow2 (-52)) = 1 + pow2 (-52)).
  { apply fl_id. replace (1 + pow2 (-52)) with (IZR 4503599627370497 * bpow radix2 (-52)) by (rewrite P52; cbn; lra).
    apply double_fmt. exists 4503599627370497%Z, (-52)%Z. rewrite pow2_bpow. split; [reflexivity|]. split; reflexivity || lia. }
  assert (Q : dots (combine (map (fun v => fmul v (fmul 1 1)) [0; 0; 0; 0]) [0; 0; 0; 0]) 0).
  { cbn [map combine]. rewrite !fmul_0.
    assert (Z : forall l v, dots l v -> v = 0 -> dots ((0, 0) :: l) 0).
    { intros l v D ->. replace 0 with (fl (0 + 0 * 0)) at 3 by (rewrite Rmult_0_l, Rplus_0_l; apply fl_0). apply dots_fma. exact D. }
    apply (Z _ 0); [|reflexivity]. apply (Z _ 0); [|reflexivity]. apply (Z _ 0); [|reflexivity]. apply (Z _ 0); [constructor|reflexivity]. }
  assert (O : forall a b v, fl (a * b) = v -> dots [(a, b)] v) by (intros a b v <-; constructor).
  assert (Ad : forall l1 l2 v1 v2 v, dots l1 v1 -> dots l2 v2 -> fl (v1 + v2) = v -> dots (l1 ++ l2) v) by (intros; subst v; constructor; assumption).
  exists [1; 1; 1; -1], [0; 0; 0; 0], [1; u; u; 1], [0; 0; 0; 0], 0, (pow2 (-52)).
  repeat (split; [reflexivity|]).
  assert (I1 : dots [(1, 1)] 1) by (apply O; rewrite Rmult_1_r; apply fl_id, F1).
  assert (IU : dots [(u, 1)] u) by (apply O; rewrite Rmult_1_r; apply fl_id, Fu).
  assert (IM : dots [(1, -1)] (-1)) by (apply O; rewrite Rmult_1_l; apply fl_id, FM).
  split; [|split; [|split; reflexivity]].
  - exists 0, 0. split; [|split; [exact Q|unfold fsub; rewrite Rminus_0_r; symmetry; apply fl_0]].
    cbn [combine]. change [(1, 1); (u, 1); (u, 1); (1, -1)] with ((([(1, 1)] ++ [(u, 1)]) ++ [(u, 1)]) ++ [(1, -1)]).
    apply (Ad _ _ 1 (-1)); [|exact IM|replace (1 + -1) with 0 by ring; apply fl_0].
    apply (Ad _ _ 1 u); [|exact IU|exact T]. apply (Ad _ _ 1 u); assumption.
  - exists (pow2 (-52)), 0. split; [|split; [exact Q|unfold fsub; rewrite Rminus_0_r; symmetry; apply fl_id, F2]].
    cbn [combine]. change [(1, 1); (u, 1); (u, 1); (1, -1)] with (([(1, 1)] ++ ([(u, 1)] ++ [(u, 1)])) ++ [(1, -1)]).
    apply (Ad _ _ (1 + pow2 (-52)) (-1)); [|exact IM|replace (1 + pow2 (-52) + -1) with (pow2 (-52)) by ring; apply fl_id, F2].
    apply (Ad _ _ 1 (pow2 (-52))); [exact I1| |exact S1]. apply (Ad _ _ u u); assumption.
Qed.
Print Assumptions C64_order_refuted.

(** Non-vacuity: the hypotheses hold of scales set twice, input scales 2 and 10, one constraint scale. *)
Example C64_nonvacuous :
  let h := [SetInput [3; 5]; SetCon [7]; SetInput [2; 10]] in
  last_in h (repeat 1 2) = [2; 10] /\ last_con h (repeat 1 1) = [7] /\ fair 2 /\ fair 10 /\ fair 7 /\ sane (-3) /\ sane 0 /\
  (exists r, fl_continuity [1; -1] [/ 2; / 2] [1; 2] [1; 1] (/ 4) 8 r) /\ INR 2 <= 1000000.
Proof.
  assert (P1 : pow2 (-200) <= 1) by (rewrite pow2_bpow; change 1 with (bpow radix2 0); apply bpow_le; lia).
  assert (P4 : 16 <= pow2 200) by (rewrite pow2_bpow; change 16 with (bpow radix2 4); apply bpow_le; lia).
  assert (P5 : pow2 (-500) <= 1) by (rewrite pow2_bpow; change 1 with (bpow radix2 0); apply bpow_le; lia).
  cbn zeta. split; [reflexivity|]. split; [reflexivity|]. unfold fair, sane.
  repeat (split; [lra|]). split; [right; rewrite Rabs_left by lra; lra|]. split; [left; reflexivity|].
  split; [|cbn; lra].
  eexists. exists (fadd (fmul 1 1) (fmul 2 (-1))), (fadd (fmul (fmul 1 (fmul (/ 4) 8)) (/ 2)) (fmul (fmul 1 (fmul (/ 4) 8)) (/ 2))).
  split; [|split; [|reflexivity]].
  - cbn [combine]. apply (dots_add [(1, 1)] [(2, -1)]); constructor.
  - cbn [map combine]. apply (dots_add [(_, _)] [(_, _)]); constructor.
Qed.
