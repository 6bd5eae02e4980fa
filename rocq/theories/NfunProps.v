(** C67: problems written against the abstract class NLPFunction *)
From Verif Require Import Base RBase JaxSpec JaxProps2 NfunModel NfunSpec NfunProofs.

(** jax.grad, jax.jacobian and jax.hessian give the partial derivatives of functions that have them *)
Record derivatives_ok (grad : (list R -> R) -> list R -> nat -> R) (jac : (list R -> list R) -> list R -> nat -> nat -> R)
    (hess : (list R -> R) -> list R -> nat -> nat -> R) : Prop := {
  d_grad : forall n f g, is_gradient n f g -> is_gradient n f (grad f);
  d_jac : forall n m f J, is_jacobian n m f J -> is_jacobian n m f (jac f);
  d_hess : forall n f H, is_hessian n f H -> is_hessian n f (hess f) }.

(** After any history the gradient is that of the objective with the attributes the object had when the gradient
    was first evaluated with as many variables. *)
Theorem C67_gradient : forall At obj con nd grad jac hess s h x, derivatives_ok grad jac hess ->
  let s' := first_gradient (List.length x) s h in
  (exists g, is_gradient (List.length x) (obj s') g) ->
  exists v, nth_error (run At obj con nd grad jac hess (new At s) (h ++ [Gradient x])) (List.length h) = Some (Ok (VVec v)) /\
    List.length v = List.length x /\ forall j, (j < List.length x)%nat -> pderiv (obj s') x j (vget j v).
Proof.
  intros At obj con nd grad jac hess s h x D s' [g G].
  exists (gradient_at At obj grad s' x). split; [|split].
  - rewrite run_last. cbn [step]. pose proof (gradient_trace At obj con nd grad jac hess (List.length x) h (new At s)) as T.
    cbn [new n_traces trace_of n_at] in T. fold s' in T. change {| n_at := s; n_traces := []; n_last := LNone |} with (new At s) in T.
    destruct (trace_of _ _ _); cbn [snd]; rewrite T; reflexivity.
  - unfold gradient_at. rewrite map_length, seq_length. reflexivity.
  - intros j Hj. unfold gradient_at, vget.
    rewrite (nth_indep _ 0 (grad (obj s') x 0%nat)) by (rewrite map_length, seq_length; exact Hj).
    rewrite map_nth, seq_nth by exact Hj. cbn [plus]. exact (d_grad _ _ _ D _ _ _ G x j eq_refl Hj).
Qed.
Print Assumptions C67_gradient.

(** The jacobian likewise, *)
Theorem C67_jacobian : forall At obj con nd grad jac hess s h x, derivatives_ok grad jac hess ->
  let s' := first_jacobian (List.length x) s h in
  (exists J, is_jacobian (List.length x) (List.length (con s' x)) (con s') J) ->
  exists m, nth_error (run At obj con nd grad jac hess (new At s) (h ++ [Jacobian x])) (List.length h) = Some (Ok (VMat m)) /\
    List.length m = List.length (con s' x) /\
    forall i, (i < List.length (con s' x))%nat -> List.length (nth i m []) = List.length x /\
      forall j, (j < List.length x)%nat -> pderiv (fun y => vget i (con s' y)) x j (vget j (nth i m [])).
Proof.
  intros At obj con nd grad jac hess s h x D s' [g G].
  exists (jacobian_at At con jac s' x). split; [|split].
  - rewrite run_last. cbn [step]. pose proof (jacobian_trace At obj con nd grad jac hess (List.length x) h (new At s)) as T.
    cbn [new n_traces trace_of n_at] in T. fold s' in T. change {| n_at := s; n_traces := []; n_last := LNone |} with (new At s) in T.
    destruct (trace_of _ _ _); cbn [snd]; rewrite T; reflexivity.
  - unfold jacobian_at. rewrite map_length, seq_length. reflexivity.
  - intros i Hi. set (F := fun i => map (jac (con s') x i) (seq 0 (List.length x))).
    assert (nth i (jacobian_at At con jac s' x) [] = F i) as E.
    { unfold jacobian_at. fold F. rewrite (nth_indep _ [] (F 0%nat)) by (rewrite map_length, seq_length; exact Hi).
      rewrite map_nth, seq_nth by exact Hi. reflexivity. }
    rewrite E. unfold F. split; [rewrite map_length, seq_length; reflexivity|].
    intros j Hj. unfold vget at 2.
    rewrite (nth_indep _ 0 (jac (con s') x i 0%nat)) by (rewrite map_length, seq_length; exact Hj).
    rewrite map_nth, seq_nth by exact Hj. cbn [plus]. exact (d_jac _ _ _ D _ _ _ _ G x i j eq_refl Hi Hj).
Qed.
Print Assumptions C67_jacobian.

(** and the hessian: its values are the second derivatives of f times the objective plus the multipliers times
    the constraints, at the positions of hessianstructure. *)
Theorem C67_hessian : forall At obj con nd grad jac hess s h x lam f s', derivatives_ok grad jac hess ->
  first_hessian At con nd (List.length x) (List.length lam) s h = Some s' \/
  (first_hessian At con nd (List.length x) (List.length lam) s h = None /\ s' = attrs s h /\ List.length lam = List.length (con s' x)) ->
  nd s' = Ok (List.length x) ->
  let L := fun y => f * obj s' y + vdot lam (con s' y) in
  (exists H, is_hessian (List.length x) L H) ->
  exists rows cols v g,
    nth_error (run At obj con nd grad jac hess (new At s') [Structure]) 0 = Some (Ok (VIdx rows cols)) /\
    nth_error (run At obj con nd grad jac hess (new At s) (h ++ [Hessian x lam f])) (List.length h) = Some (Ok (VVec v)) /\
    List.length v = List.length rows /\ is_gradient (List.length x) L g /\
    forall p i j, nth_error rows p = Some i -> nth_error cols p = Some j ->
      exists d, nth_error v p = Some d /\ pderiv (fun y => g y i) x j d.
Proof.
  intros At obj con nd grad jac hess s h x lam f s' D Hs Hn L [H0 HH].
  destruct (d_hess _ _ _ D _ _ _ HH) as [g [Hg Hd]].
  exists (triu_rows (List.length x)), (triu_cols (List.length x)), (hessian_at At obj con hess s' (List.length x) x lam f), g.
  split; [cbn; rewrite Hn; reflexivity|]. split; [|split; [|split; [exact Hg|]]].
  - rewrite run_last. cbn [step].
    pose proof (hessian_trace At obj con nd grad jac hess (List.length x) (List.length lam) h (new At s)) as T.
    cbn [new n_traces trace_of n_at] in T. change {| n_at := s; n_traces := []; n_last := LNone |} with (new At s) in T. rewrite T.
    destruct Hs as [E|[E [E1 E2]]]; rewrite E.
    + cbn [snd]. unfold nd_or. rewrite Hn. reflexivity.
    + rewrite final_at. cbn [new n_at]. rewrite <- E1, (proj2 (Nat.eqb_eq _ _) E2), Hn. reflexivity.
  - unfold hessian_at. rewrite map2_length_eq by apply triu_lengths. reflexivity.
  - intros p i j Hi Hj. pose proof (triu_lt _ _ _ _ Hi Hj) as Lt.
    exists (hess L x i j). split; [exact (hessian_at_nth At obj con hess s' x lam f p i j Hi Hj)|].
    apply Hd; [reflexivity|lia|lia].
Qed.
Print Assumptions C67_hessian.

(** hessianstructure: the upper triangle, each position once *)
Theorem C67_structure : forall At obj con nd grad jac hess s n, nd s = Ok n ->
  exists rows cols, nth_error (run At obj con nd grad jac hess (new At s) [Structure]) 0 = Some (Ok (VIdx rows cols)) /\
    List.length rows = List.length cols /\ NoDup (combine rows cols) /\
    forall i j, In (i, j) (combine rows cols) <-> (i <= j < n)%nat.
Proof.
  intros At obj con nd grad jac hess s n Hn. exists (triu_rows n), (triu_cols n).
  split; [cbn; rewrite Hn; reflexivity|]. split; [apply triu_lengths|]. split; [apply triu_nodup|]. intros i j. apply triu_in.
Qed.
Print Assumptions C67_structure.

(** Objective and constraints use the attributes the object has now; so when no attribute has changed, the derivatives
    are those of the objective and the constraints. *)
Theorem C67_consistent : forall At obj con nd grad jac hess s h x, 
  nth_error (run At obj con nd grad jac hess (new At s) (h ++ [Objective x])) (List.length h) = Some (Ok (VNum (obj (attrs s h) x))) /\
  nth_error (run At obj con nd grad jac hess (new At s) (h ++ [Constraints x])) (List.length h) = Some (Ok (VVec (con (attrs s h) x))) /\
  (unchanged h = true -> attrs s h = s /\ first_gradient (List.length x) s h = s /\ first_jacobian (List.length x) s h = s /\
    forall m s', first_hessian At con nd (List.length x) m s h = Some s' -> s' = s).
Proof.
  intros At obj con nd grad jac hess s h x. rewrite !run_last. cbn [step snd]. rewrite !final_at. cbn [new n_at].
  split; [reflexivity|]. split; [reflexivity|].
  induction h as [|a h IH]; intros U; [repeat split; discriminate|].
  cbn [unchanged forallb] in U. apply Bool.andb_true_iff in U as [U1 U2]. destruct (IH U2) as [I1 [I2 [I3 I4]]]. clear IH.
  destruct a as [g|y|y|y|y| |y lam f|]; try discriminate U1; cbn [attrs first_gradient first_jacobian first_hessian]; repeat split; auto.
  - destruct (Nat.eqb _ _); auto.
  - destruct (Nat.eqb _ _); auto.
  - intros m s' E. destruct (_ && _)%bool; [|eauto]. destruct (evaluable_dec _ _ _ _ _ _); [congruence|eauto].
Qed.
Print Assumptions C67_consistent.

(** The iterate that is kept for logging is the argument of the last objective call, as long as only derivatives
    follow whose hessians (of these shapes) have been evaluated before. *)
Theorem C67_last_iterate : forall At obj con nd grad jac hess s h1 x h2,
  forallb (fun a => match a with Objective _ => false | _ => true end) h2 = true ->
  (forall y lam f, In (Hessian y lam f) h2 -> first_hessian At con nd (List.length y) (List.length lam) s h1 <> None) ->
  nth_error (run At obj con nd grad jac hess (new At s) ((h1 ++ Objective x :: h2) ++ [LastIter])) (List.length (h1 ++ Objective x :: h2)) =
  Some (Ok (VLast (LVal x))).
Proof.
  intros At obj con nd grad jac hess s h1 x h2 HO HH. rewrite run_last. cbn [step snd]. do 3 f_equal.
  rewrite final_app. cbn [final step fst]. set (o := final At obj con nd grad jac hess (new At s) h1) in *.
  assert (forall y lam f, In (Hessian y lam f) h2 -> trace_of At (KHess (List.length y) (List.length lam)) (n_traces At o) <> None) as HT.
  { intros y lam f K. unfold o. rewrite hessian_trace. cbn [new n_traces trace_of n_at]. eapply HH; eassumption. }
  clearbody o. clear HH h1.
  assert (n_last At (with_last At o (LVal x)) = LVal x) as E by reflexivity.
  assert (forall y lam f, In (Hessian y lam f) h2 -> trace_of At (KHess (List.length y) (List.length lam)) (n_traces At (with_last At o (LVal x))) <> None) as HT' by exact HT.
  clear HT. revert E HT'. generalize (with_last At o (LVal x)) as o'. clear o s.
  induction h2 as [|a h2 IH]; intros o E HT; [exact E|].
  cbn in HO. apply Bool.andb_true_iff in HO as [HO1 HO2]. cbn [final]. apply (IH HO2).
  - rewrite quiet_last; [exact E|]. destruct a; try reflexivity; [discriminate|].
    cbn [quiet]. destruct (trace_of _ _ _) eqn:T; [reflexivity|]. exfalso. eapply HT; [left; reflexivity|exact T].
  - intros y lam f K. destruct (trace_of At (KHess (List.length y) (List.length lam)) (n_traces At o)) as [q|] eqn:T.
    + eapply trace_keep. exact T.
    + exfalso. eapply HT; [right; exact K|exact T].
Qed.
Print Assumptions C67_last_iterate.

(** Not true: the first evaluation of a hessian puts a dead tracer in its place, *)
Theorem C67_last_refuted : forall At obj con nd grad jac hess s h1 x y lam f,
  first_hessian At con nd (List.length y) (List.length lam) s (h1 ++ [Objective x]) = None ->
  nth_error (run At obj con nd grad jac hess (new At s) ((h1 ++ [Objective x; Hessian y lam f]) ++ [LastIter]))
    (List.length (h1 ++ [Objective x; Hessian y lam f])) = Some (Ok (VLast LTracer)).
Proof.
  intros At obj con nd grad jac hess s h1 x y lam f E. rewrite run_last. cbn [step snd]. do 3 f_equal.
  replace (h1 ++ [Objective x; Hessian y lam f]) with ((h1 ++ [Objective x]) ++ [Hessian y lam f]) by (rewrite <- app_assoc; reflexivity).
  rewrite final_app. cbn [final step].
  pose proof (hessian_trace At obj con nd grad jac hess (List.length y) (List.length lam) (h1 ++ [Objective x]) (new At s)) as T.
  cbn [new n_traces trace_of n_at] in T. change {| n_at := s; n_traces := []; n_last := LNone |} with (new At s) in T.
  rewrite T, E. destruct (Nat.eqb _ _); [|reflexivity]. destruct (nd _); reflexivity.
Qed.
Print Assumptions C67_last_refuted.

(** and that derivatives follow the attributes: objective k * x with k changed from 1 to 2 after the first gradient. *)
Definition slope (k : R) (x : list R) : R := k * vget 0 x.
Lemma slope_gradient : forall k, is_gradient 1 (slope k) (fun _ _ => k).
Proof.
  intros k x j Hx Hj. assert (j = 0%nat) as -> by lia. unfold slope.
  apply pderiv_eq with (k * 1); [lra|]. apply pderiv_scal. apply (pderiv_coord 0 0). lia.
Qed.
Theorem C67_stale_refuted : forall con nd grad jac hess, derivatives_ok grad jac hess ->
  let h := [Gradient [1]; SetAttr (fun _ => 2)] in
  nth_error (run R slope con nd grad jac hess (new R 1) (h ++ [Objective [1]])) 2 = Some (Ok (VNum 2)) /\
  nth_error (run R slope con nd grad jac hess (new R 1) (h ++ [Gradient [1]])) 2 = Some (Ok (VVec [1])) /\
  pderiv (slope 2) [1] 0 2.
Proof.
  intros con nd grad jac hess D h. split; [|split].
  - cbn. do 3 f_equal. unfold slope, vget. cbn. lra.
  - destruct (C67_gradient R slope con nd grad jac hess 1 h [1] D) as [v [V [L P]]].
    + exists (fun _ _ => 1). apply slope_gradient.
    + change (List.length h) with 2%nat in V. rewrite V. do 3 f_equal.
      destruct v as [|a [|]]; try discriminate L. f_equal. specialize (P 0%nat ltac:(cbn; lia)). cbn [first_gradient h List.length Nat.eqb vget nth] in P.
      eapply pderiv_unique; [exact P|]. apply (slope_gradient 1); cbn; lia.
  - apply (slope_gradient 2); cbn; lia.
Qed.
Print Assumptions C67_stale_refuted.

(** A quadratic objective with one constraint in two variables, evaluated in the order a solver uses *)
Definition qobj (k : R) (x : list R) : R := k * (vget 0 x * vget 0 x) + vget 1 x.
Definition qcon (k : R) (x : list R) : list R := [vget 0 x * vget 1 x].
Lemma qobj_gradient : forall k, is_gradient 2 (qobj k) (fun x j => if Nat.eqb j 0 then k * (1 * vget 0 x + vget 0 x * 1) + 0 else k * (0 * vget 0 x + vget 0 x * 0) + 1).
Proof.
  intros k x j Hx Hj. unfold qobj. destruct j as [|[|]]; [| |lia]; cbn [Nat.eqb].
  - apply (pderiv_plus (fun y => k * (vget 0 y * vget 0 y)) (vget 1)).
    + apply pderiv_scal. apply pderiv_mult; apply (pderiv_coord 0 0); lia.
    + apply (pderiv_coord 1 0). lia.
  - apply (pderiv_plus (fun y => k * (vget 0 y * vget 0 y)) (vget 1)).
    + apply pderiv_scal. apply pderiv_mult; apply (pderiv_coord 0 1); lia.
    + apply (pderiv_coord 1 1). lia.
Qed.
Example C67_nonvacuous : forall grad jac hess, derivatives_ok grad jac hess ->
  let h := [Objective [3; 4]; Gradient [3; 4]; Constraints [3; 4]; Gradient [1]; SetAttr (fun _ => 5)] in
  let o := run R qobj qcon (fun _ => Ok 2%nat) grad jac hess (new R 1) (h ++ [Gradient [3; 4]]) in
  first_gradient 2 1 h = 1 /\ attrs 1 h = 5 /\
  nth_error o 0 = Some (Ok (VNum 13)) /\ nth_error o 2 = Some (Ok (VVec [12])) /\ nth_error o 5 = Some (Ok (VVec [6; 1])).
Proof.
  intros grad jac hess D h o. split; [reflexivity|]. split; [reflexivity|]. split; [|split].
  - cbn. unfold qobj, vget. cbn. do 3 f_equal. lra.
  - cbn. unfold qcon, vget. cbn. do 4 f_equal. lra.
  - destruct (C67_gradient R qobj qcon (fun _ => Ok 2%nat) grad jac hess 1 h [3; 4] D) as [v [V [L P]]].
    + eexists. apply qobj_gradient.
    + unfold o. change (List.length h) with 5%nat in V. rewrite V. do 3 f_equal.
      destruct v as [|a [|b [|]]]; try discriminate L.
      pose proof (P 0%nat ltac:(cbn; lia)) as P0. pose proof (P 1%nat ltac:(cbn; lia)) as P1.
      cbn [first_gradient h List.length Nat.eqb vget nth] in P0, P1.
      pose proof (pderiv_unique _ _ _ _ _ P0 (qobj_gradient 1 [3; 4] 0%nat eq_refl ltac:(lia))) as E0.
      pose proof (pderiv_unique _ _ _ _ _ P1 (qobj_gradient 1 [3; 4] 1%nat eq_refl ltac:(lia))) as E1.
      cbn in E0, E1. rewrite E0, E1. f_equal; [lra|]. f_equal. lra.
Qed.

(** automatic differentiation as assumed exists *)
Example C67_derivatives_exist : derivatives_ok ideal_gradient ideal_jacobian ideal_hessian.
Proof.
  constructor; [|apply C60_autodiff_exists|apply C60_autodiff_exists].
  intros n f g G x j Lx Hj. unfold ideal_gradient. rewrite (ideal_pderiv f x j _ (G x j Lx Hj)). now apply G.
Qed.
