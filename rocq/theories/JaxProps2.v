(** C60, continued: the hypotheses are met, and the two exact backends of the brachistochrone example agree. *)
From Verif Require Import Base RBase TreeModel UtilsModel UtilsProofs IoModel CollocModel CollocProofs CollocProps MeshModel MeshProps OcpModel OcpSpec NlpModel NlpSpec AlgModel AlgSpec AlgProofs AlgProps ConvModel ConvSpec
  CyclicSpec BoundModel BoundSpec ScaleModel ScaleSpec ObjSpec BuildModel BuildSpec CBuildSpec BrachModel BrachProofs BrachSpec2 BrachProps2 BrachProps3 BrachProps4 JaxModel JaxSpec JaxProofs JaxProps.
From Coquelicot Require Derive.
Import ListNotations.

(** ** automatic differentiation as assumed exists: the derivative where there is one *)
Definition ideal_jacobian (f : list R -> list R) (x : list R) (i j : nat) : R := Derive.Derive (fun t => vget i (f (upd j t x))) (vget j x).
Definition ideal_gradient (f : list R -> R) (x : list R) (j : nat) : R := Derive.Derive (fun t => f (upd j t x)) (vget j x).
Definition ideal_hessian (f : list R -> R) (x : list R) (j k : nat) : R := Derive.Derive (fun t => ideal_gradient f (upd k t x) j) (vget k x).
Lemma ideal_pderiv : forall f x j d, pderiv f x j d -> Derive.Derive (fun t => f (upd j t x)) (vget j x) = d.
Proof. intros f x j d H. apply Derive.is_derive_unique. now apply Derive.is_derive_Reals. Qed.
Example C60_autodiff_exists : autodiff_ok ideal_jacobian ideal_hessian.
Proof.
  constructor.
  - intros n m f J HJ x i j Lx Hi Hj. unfold ideal_jacobian. rewrite (ideal_pderiv (fun y => vget i (f y)) x j _ (HJ x i j Lx Hi Hj)). now apply HJ.
  - intros n f H (g & G & HH). exists g. split; [exact G|]. intros x j k Lx Hj Hk. unfold ideal_hessian.
    assert (forall y, List.length y = n -> ideal_gradient f y j = g y j) as E by (intros y Ly; apply ideal_pderiv; now apply G).
    rewrite (ideal_pderiv (fun y => ideal_gradient f y j) x k (H x j k)); [now apply HH|]. eapply pderiv_ext_len; [|now apply HH]. intros y Ly. symmetry. apply E. congruence.
Qed.
Print Assumptions C60_autodiff_exists.

(** ** the model of the brachistochrone example *)
Lemma four : forall x : list R, List.length x = 4%nat -> exists a b c d, x = [a; b; c; d].
Proof. intros x H. do 4 (destruct x as [|? x]; [discriminate|]). destruct x; [|discriminate]. repeat eexists. Qed.
Ltac open4 := match goal with L : List.length ?x = 4%nat |- _ => let E := fresh in destruct (four x L) as (? & ? & ? & ? & E); subst x end.
Ltac cases4 j := destruct j as [|[|[|[|j]]]]; [| | | |lia].
Ltac hess4 g H E := exists H, g; split;
  [ let x := fresh in let j := fresh in let Lx := fresh in let Hj := fresh in intros x j Lx Hj; open4; unfold pderiv; cases4 j;
    (eapply ext_lim; [let t := fresh in intro t; cbn [upd]; rewrite E; reflexivity|]); cbn [vget nth]; der_eq
  | let x := fresh in let j := fresh in let k := fresh in let Lx := fresh in let Hj := fresh in let Hk := fresh in intros x j k Lx Hj Hk; open4; unfold pderiv; cases4 j; cases4 k; cbn [upd vget nth]; der_eq ].
Lemma time_called : forall js hs jac hess g mesh v x y th, called (time_model jac hess js hs) g mesh [v; x; y; th] =
  Ok ([("v", - g * sin th); ("x", cos th * v); ("y", sin th * v)], [("theta", th)]).
Proof. reflexivity. Qed.
Lemma time_smooth : forall jac hess js hs con, incl con ["theta"] -> twice_differentiable (time_model jac hess js hs) con.
Proof.
  intros jac hess js hs con IC g mesh. cbn [time_model m_states m_inputs m_residuals List.length time_states brach_inputs Nat.add]. split.
  - intros nm [<-|[<-|[<-|[]]]].
    + hess4 (fun w j => match j with 3%nat => - g * cos (vget 3 w) | _ => 0 end) (fun w j k => match j, k with 3%nat, 3%nat => g * sin (vget 3 w) | _, _ => 0 end)
        (fun v x y th => eq_refl : derivative_value (time_model jac hess js hs) g mesh "v" [v; x; y; th] = - g * sin th).
    + hess4 (fun w j => match j with 0%nat => cos (vget 3 w) | 3%nat => - sin (vget 3 w) * vget 0 w | _ => 0 end)
        (fun w j k => match j, k with 0%nat, 3%nat => - sin (vget 3 w) | 3%nat, 0%nat => - sin (vget 3 w) | 3%nat, 3%nat => - cos (vget 3 w) * vget 0 w | _, _ => 0 end)
        (fun v x y th => eq_refl : derivative_value (time_model jac hess js hs) g mesh "x" [v; x; y; th] = cos th * v).
    + hess4 (fun w j => match j with 0%nat => sin (vget 3 w) | 3%nat => cos (vget 3 w) * vget 0 w | _ => 0 end)
        (fun w j k => match j, k with 0%nat, 3%nat => cos (vget 3 w) | 3%nat, 0%nat => cos (vget 3 w) | 3%nat, 3%nat => - sin (vget 3 w) * vget 0 w | _, _ => 0 end)
        (fun v x y th => eq_refl : derivative_value (time_model jac hess js hs) g mesh "y" [v; x; y; th] = sin th * v).
  - intros nm [H|[]]. apply IC in H. destruct H as [<-|[]].
    hess4 (fun (w : list R) j => match j with 3%nat => 1 | _ => 0 end) (fun (w : list R) (j k : nat) => 0)
      (fun v x y th => eq_refl : output_value (time_model jac hess js hs) g mesh "theta" [v; x; y; th] = th).
Qed.
Lemma keys3 : forall d : dict R, keys d = time_states -> exists a b c, d = [("v", a); ("x", b); ("y", c)].
Proof. intros d H. destruct d as [|[? a] [|[? b] [|[? c] [|]]]]; try discriminate. injection H as -> -> ->. eauto. Qed.
Lemma keys1 : forall d : dict R, keys d = brach_inputs -> exists a, d = [("theta", a)].
Proof. intros d H. destruct d as [|[? a] [|]]; try discriminate. injection H as ->. eauto. Qed.
Lemma time_declared : forall jac hess js hs con, NoDup con -> incl con ["theta"] -> declared_ok (time_model jac hess js hs) con.
Proof.
  intros jac hess js hs con N I. constructor.
  - split; [repeat constructor; cbn; intuition congruence|]. split; [repeat constructor; cbn; tauto|]. split; [exact N|]. split; [constructor|]. split; [exact I|intros a []].
  - intros nm [H|H]; [destruct H as [<-|[<-|[<-|[]]]]|destruct H as [<-|[]]]; reflexivity.
  - discriminate.
  - intros g ds di mesh Hs Hi. cbn [time_model m_states m_inputs] in *. apply keys3 in Hs. apply keys1 in Hi. destruct Hs as (a & b & c & ->). destruct Hi as (th & ->). eexists. eexists. split; [reflexivity|]. split; intros z Hz; exact Hz.
Qed.

(** with jax the example has exact derivatives also when its output is constrained, where the hand-written ones are wrong (C59_custom_con_refuted) ... *)
Theorem C60_brachistochrone : forall jac hess js hs dj dh con, autodiff_ok jac hess -> NoDup con -> incl con ["theta"] ->
  model_ok (jax_model jac hess (time_model dj dh js hs)) con /\ exact_derivatives (jax_model jac hess (time_model dj dh js hs)) con.
Proof. intros jac hess js hs dj dh con AD N I. apply C60_jax_exact; [exact AD|now apply time_declared|now apply time_smooth]. Qed.
Print Assumptions C60_brachistochrone.
(** ... and without constrained outputs the two backends give the same matrices, although jax's structure has more entries *)
Theorem C60_brachistochrone_agree : forall jac hess, autodiff_ok jac hess -> forall g mesh w, List.length w = 7%nat ->
  let A := custom_model in let B := jax_model jac hess custom_model in
  (forall i j, (i < 3)%nat -> (j < 7)%nat -> tri (fst (m_js A [])) (snd (m_js A [])) (m_jac A [] w mesh g) i j = tri (fst (m_js B [])) (snd (m_js B [])) (m_jac B [] w mesh g) i j) /\
  (forall l i j, List.length l = 3%nat -> (i < 7)%nat -> (j < 7)%nat -> tri (fst (m_hs A [])) (snd (m_hs A [])) (m_hess A [] w l mesh g) i j = tri (fst (m_hs B [])) (snd (m_hs B [])) (m_hess B [] w l mesh g) i j) /\
  (List.length (fst (m_js A [])) < List.length (fst (m_js B [])))%nat /\ (List.length (fst (m_hs A [])) < List.length (fst (m_hs B [])))%nat.
Proof.
  intros jac hess AD g mesh w Lw A B.
  assert (exact_derivatives B []) as XB by (apply C60_brachistochrone; [exact AD|constructor|intros a []]).
  assert (exact_derivatives A []) as XA by apply C59_custom_exact.
  destruct (C60_backends_agree R A B [] (fun _ => eq_refl) (fun _ _ _ _ => eq_refl) XA XB g mesh w Lw) as [J H].
  split; [exact J|]. split; [exact H|]. split; vm_compute; lia.
Qed.
Print Assumptions C60_brachistochrone_agree.

(** the hypotheses of C60_ocp_derivatives hold of the example, whose problem is accepted *)
Example C60_nonvacuous : forall roots, oracle_ok roots None ->
  autodiff_ok ideal_jacobian ideal_hessian /\ declared_ok custom_model [] /\ twice_differentiable custom_model [] /\ position_free custom_model /\ declared_ok custom_model ["theta"] /\ twice_differentiable custom_model ["theta"] /\
  exists a, history roots (jax_model ideal_jacobian ideal_hessian custom_model) (time_config 49 1 (-65 / 100) []) None (981 / 100) [SParams 9] = Ok a.
Proof.
  intros roots HO. split; [exact C60_autodiff_exists|]. split; [apply time_declared; [constructor|intros a []]|]. split; [apply time_smooth; intros a []|]. split; [intros p ds di m m'; reflexivity|].
  split; [apply time_declared; [repeat constructor; cbn; tauto|apply incl_refl]|]. split; [apply time_smooth, incl_refl|].
  destruct (C60_brachistochrone ideal_jacobian ideal_hessian (m_js custom_model) (m_hs custom_model) (m_jac custom_model) (m_hess custom_model) [] C60_autodiff_exists (NoDup_nil _) ltac:(intros a [])) as [[_ _ _ A B C D] _].
  apply (C59_accepts roots _ _ _ _ 49 1 (-65 / 100) [] (981 / 100) [SParams 9] (conj A (conj B (conj C D))) HO); [lia|constructor|repeat constructor|]. intros s [H|[]]. discriminate.
Qed.
