(** C60: with the backend "jax" the derivatives given to IPOPT are exact, for every model whose [forward] is twice differentiable. *)
From Verif Require Import Base RBase TreeModel UtilsModel UtilsProofs IoModel CollocModel CollocProofs CollocProps MeshModel MeshProps OcpModel OcpSpec NlpModel NlpSpec AlgModel AlgSpec AlgProofs AlgProps ConvModel ConvSpec
  CyclicSpec BoundModel BoundSpec ScaleModel ScaleSpec ObjSpec BuildModel BuildSpec BuildProps3 CBuildModel CBuildSpec CBuildProps4 JaxModel JaxSpec JaxProofs.
Import ListNotations.

(** the declared structure loses nothing: for every stage, every parameter and every multiplier the triplets are the full jacobian and the full hessian *)
Theorem C60_jax_exact : forall jac hess P (M : smodel P) con, autodiff_ok jac hess -> declared_ok M con -> twice_differentiable M con ->
  model_ok (jax_model jac hess M) con /\ exact_derivatives (jax_model jac hess M) con.
Proof.
  intros jac hess P M con [AJ AH] D T. pose proof (declared_names M con D) as HN. pose proof (fun q m => declared_forward M con D q m) as HF.
  destruct (proj2 (C34_jacobian_structure (names_of M con) HN)) as (jr & jc & EJ & LJ & NJ & IJ & BJ).
  { change (names_of M con "states") with (m_states M). pose proof (dc_states M con D) as S0. destruct (m_states M); [congruence|cbn; lia]. }
  { rewrite nres. change (names_of M con "states") with (m_states M). pose proof (dc_states M con D) as S0. destruct (m_states M); [congruence|cbn; lia]. }
  destruct (C34_hessian_structure (names_of M con) HN) as (hr & hc & EH & LH & NH & IH).
  assert (forall i, nonlinear (names_of M con) i -> (i < num_implicit_var (names_of M con))%nat) as NL.
  { intros i [H|H]; apply (belongs_iff _ HN) in H; try (unfold flat_groups; simpl; auto); rewrite (nvar _ HN); unfold off in H; cbn in H; cbn; lia. }
  assert (m_js (jax_model jac hess M) con = (jr, jc)) as MJ by (cbn [jax_model m_js]; now rewrite EJ).
  assert (m_hs (jax_model jac hess M) con = (hr, hc)) as MH by (cbn [jax_model m_hs]; now rewrite EH).
  assert (forall w mesh p, m_jac (jax_model jac hess M) con w mesh p = map2 (jac (residual (names_of M con) (m_forward M p) mesh) w) jr jc) as VJ.
  { intros w mesh p. cbn [jax_model m_jac]. rewrite EJ. reflexivity. }
  assert (forall w l mesh p, m_hess (jax_model jac hess M) con w l mesh p = map2 (hess (fun y => vdot l (residual (names_of M con) (m_forward M p) mesh y)) w) hr hc) as VH.
  { intros w l mesh p. cbn [jax_model m_hess]. rewrite EH. reflexivity. }
  assert (forall (l m : list nat) a b, List.length l = List.length m -> (forall r c, In (r, c) (combine l m) -> (r < a)%nat /\ (c < b)%nat) -> Forall (fun r => (r < a)%nat) l /\ Forall (fun c => (c < b)%nat) m) as FB.
  { induction l as [|x l IHl]; intros [|y m] a b L H; try discriminate; [split; constructor|]. destruct (H x y ltac:(now left)) as [H1 H2]. destruct (IHl m a b ltac:(now injection L) ltac:(intros r c Hr; apply H; now right)). split; constructor; assumption. }
  split.
  - constructor.
    + exact HN.
    + exact (dc_dots M con D).
    + exact HF.
    + intros w m p Lw. rewrite MJ, VJ. cbn [fst]. now rewrite map2_length.
    + intros w l m p Lw Ll. rewrite MH, VH. cbn [fst]. now rewrite map2_length.
    + rewrite MJ. cbn [fst snd]. split; [exact LJ|]. apply (FB jr jc _ _ LJ). exact BJ.
    + rewrite MH. cbn [fst snd]. split; [exact LH|]. apply (FB hr hc _ _ LH). intros r c H. apply IH in H. destruct H. split; now apply NL.
  - intros p mesh. change (names_of (jax_model jac hess M) con) with (names_of M con). change (m_forward (jax_model jac hess M)) with (m_forward M). cbv zeta. rewrite MJ, MH. cbn [fst snd]. split.
    + destruct (residual_jacobian M con p mesh D T) as [J HJ]. apply AJ in HJ. intros x i j Lx Hi Hj. cbn beta. rewrite VJ.
      destruct (tri_extract (jac (residual (names_of M con) (m_forward M p) mesh) x) jr jc i j LJ NJ) as [A B].
      destruct (in_dec (fun a b : nat * nat => ltac:(decide equality; apply Nat.eq_dec)) (i, j) (combine jr jc)) as [I|I].
      * rewrite A by assumption. now apply HJ.
      * rewrite B by assumption. apply (C34_jacobian_complete (names_of M con) (m_forward M p) mesh x i j HN (HF p mesh) Lx Hi Hj). rewrite <- IJ. assumption.
    + intros l Ll. destruct (lagrangian_hessian M con p mesh D T l Ll) as [H HH]. apply AH in HH. destruct HH as (g & G & HH). exists g. split; [exact G|]. intros x i j Lx Hi Hj. cbn beta. rewrite VH.
      destruct (tri_extract (hess (fun y => vdot l (residual (names_of M con) (m_forward M p) mesh y)) x) hr hc i j LH NH) as [A B].
      destruct (in_dec (fun a b : nat * nat => ltac:(decide equality; apply Nat.eq_dec)) (i, j) (combine hr hc)) as [I|I].
      * rewrite A by assumption. now apply HH.
      * rewrite B by assumption. apply (lagrangian_zero M con p mesh D T l g x i j Ll G Lx Hi Hj). rewrite <- IH. assumption.
Qed.
Print Assumptions C60_jax_exact.

(** exact derivatives are unique: two backends that are both exact give IPOPT the same matrices *)
Theorem C60_backends_agree : forall P (M1 M2 : smodel P) con, (forall g, names_of M1 con g = names_of M2 con g) -> (forall p ds di mesh, m_forward M1 p ds di mesh = m_forward M2 p ds di mesh) ->
  exact_derivatives M1 con -> exact_derivatives M2 con ->
  forall p mesh w, List.length w = num_implicit_var (names_of M1 con) ->
  (forall i j, (i < num_implicit_res (names_of M1 con))%nat -> (j < num_implicit_var (names_of M1 con))%nat ->
     tri (fst (m_js M1 con)) (snd (m_js M1 con)) (m_jac M1 con w mesh p) i j = tri (fst (m_js M2 con)) (snd (m_js M2 con)) (m_jac M2 con w mesh p) i j) /\
  (forall l i j, List.length l = num_implicit_res (names_of M1 con) -> (i < num_implicit_var (names_of M1 con))%nat -> (j < num_implicit_var (names_of M1 con))%nat ->
     tri (fst (m_hs M1 con)) (snd (m_hs M1 con)) (m_hess M1 con w l mesh p) i j = tri (fst (m_hs M2 con)) (snd (m_hs M2 con)) (m_hess M2 con w l mesh p) i j).
Proof.
  intros P M1 M2 con EN EF X1 X2 p mesh w Lw. destruct (X1 p mesh) as [J1 H1]. destruct (X2 p mesh) as [J2 H2].
  assert (num_implicit_var (names_of M2 con) = num_implicit_var (names_of M1 con)) as E1 by (unfold num_implicit_var; f_equal; apply flat_map_ext; intro a; now rewrite EN).
  assert (num_implicit_res (names_of M2 con) = num_implicit_res (names_of M1 con)) as E2 by (unfold num_implicit_res; now rewrite !EN).
  assert (forall x, residual (names_of M2 con) (m_forward M2 p) mesh x = residual (names_of M1 con) (m_forward M1 p) mesh x) as ER.
  { intro x. unfold residual, flat_implicit, implicit, forward_with_arrays, split_flat, extract. rewrite !EN. replace (map (fun g => Datatypes.length (names_of M2 con g)) flat_groups) with (map (fun g => Datatypes.length (names_of M1 con g)) flat_groups) by (apply map_ext; intro a; now rewrite EN).
    destruct (array_to_dict (names_of M2 con "states") _); [cbn [bind]|reflexivity]. destruct (array_to_dict (names_of M2 con "inputs") _); [cbn [bind]|reflexivity]. now rewrite EF. }
  rewrite E1, E2 in *. split.
  - intros i j Hi Hj. eapply pderiv_unique; [apply (J1 w i j Lw Hi Hj)|]. eapply pderiv_ext; [|apply (J2 w i j Lw Hi Hj)]. intro y. cbn beta. now rewrite ER.
  - intros l i j Ll Hi Hj. destruct (H1 l Ll) as (g1 & G1 & K1). destruct (H2 l Ll) as (g2 & G2 & K2). eapply pderiv_unique; [apply (K1 w i j Lw Hi Hj)|]. eapply pderiv_ext_len; [|apply (K2 w i j Lw Hi Hj)].
    intros y Ly. assert (List.length y = num_implicit_var (names_of M1 con)) as Ly' by congruence. eapply pderiv_unique; [apply (G2 y i Ly' Hi)|]. eapply pderiv_ext; [|apply (G1 y i Ly' Hi)]. intro z. cbn beta. now rewrite ER.
Qed.
Print Assumptions C60_backends_agree.

(** ... hence the whole problem: objective, gradient, constraints, jacobian and hessian of the Lagrangian, after any history of settings, for a
    problem with the derivative variables ... *)
Theorem C60_ocp_derivatives : forall jac hess roots P (M : smodel P) cfg fixed p cs a,
  autodiff_ok jac hess -> oracle_ok roots (cf_tns cfg) -> (1 <= cf_n cfg)%nat -> declared_ok M (cf_con cfg) -> twice_differentiable M (cf_con cfg) -> (fixed <> None -> In "time" (m_states M)) ->
  (forall w, cf_pen cfg = Some w -> NoDup (keys w) /\ incl (keys w) (m_inputs M)) ->
  history roots (jax_model jac hess M) cfg fixed p cs = Ok a -> Forall plain cs -> Forall (fun c => 0 < sc_v c) (scales_asked (cf_scales cfg) cs) ->
  (fixed <> None \/ position_free M) ->
  let N := num_dec (oc_op (a_o a)) in
  exists pr, problem_of (jax_model jac hess M) a = Ok pr /\ p_n pr = N /\
  exists F G C J jr jc, prob_jacobianstructure pr = Ok (jr, jc) /\
    (forall x, List.length x = N -> prob_objective pr x = Ok (F x) /\ prob_gradient pr x = Ok (G x) /\ prob_constraints pr x = Ok (C x) /\ prob_jacobian pr x = Ok (J x)) /\
    is_gradient N F (fun x j => vget j (G x)) /\ is_jacobian N (num_con pr) C (fun x => tri jr jc (J x)) /\
    forall fac lam, List.length lam = num_con pr -> exists V hr hc, snd (prob_hessianstructure pr) = Ok (hr, hc) /\
      (forall x, List.length x = N -> snd (prob_hessian pr x lam fac) = Ok (V x)) /\
      exists g, is_gradient N (fun x => fac * F x + vdot lam (C x)) g /\ forall x i j, List.length x = N -> (i < N)%nat -> (j < N)%nat -> (i <= j)%nat -> pderiv (fun y => g y i) x j (tri hr hc (V x) i j).
Proof.
  intros jac hess roots P M cfg fixed p cs a AD OR N1 D T TM PEN HI PL SC PF.
  destruct (C60_jax_exact jac hess P M (cf_con cfg) AD D T) as [MO X].
  apply (C51_derivatives roots P (jax_model jac hess M) cfg fixed p cs a OR N1 (dc_states M _ D) MO TM PEN HI PL SC); [|exact PF].
  intros q mesh nin res. destruct (X q mesh) as [XJ XH]. split; [exact XJ|]. intros l Ll. destruct (XH l Ll) as (g & G & H). exists g. split; [exact G|]. intros w i j Lw Hi Hj _. now apply H.
Qed.
Print Assumptions C60_ocp_derivatives.
(** ... and for the condensed problem (without them) *)
Theorem C60_condensed_derivatives : forall jac hess roots P (M : smodel P) cfg fixed p x0 cs k,
  autodiff_ok jac hess -> oracle_ok roots (cf_tns cfg) -> (1 <= cf_n cfg)%nat -> declared_ok M (cf_con cfg) -> twice_differentiable M (cf_con cfg) -> (fixed <> None -> In "time" (m_states M)) ->
  (forall w, cf_pen cfg = Some w -> NoDup (keys w) /\ incl (keys w) (m_inputs M)) ->
  chistory roots (jax_model jac hess M) cfg fixed p x0 cs = Ok k -> Forall plain cs -> Forall (fun c => 0 < sc_v c) (scales_asked (cf_scales cfg) cs) ->
  (fixed <> None \/ position_free M) ->
  let N := num_dec (oc_op (a_o (k_a k))) in
  let now := match fixed with Some s => Some (mesh_scale_asked s cs) | None => None end in
  let phys := physical (a_o (k_a k)) (m_states M) (m_inputs M) (cf_con cfg) now (scales_asked (cf_scales cfg) cs) in
  exists pr, cproblem_of (jax_model jac hess M) k = Ok pr /\ p_n pr = N /\
  exists F G C J D jr jc, prob_jacobianstructure pr = Ok (jr, jc) /\
    (forall x, List.length x = N -> prob_objective pr x = Ok (F x) /\ prob_gradient pr x = Ok (G x) /\ prob_constraints pr x = Ok (C x) /\ prob_jacobian pr x = Ok (J x)) /\
    is_gradient N F (fun x j => vget j (G x)) /\ is_jacobian N (num_con pr) C D /\
    (forall x i j, List.length x = N -> (i < num_con pr)%nat -> (j < N)%nat -> (In (i, j) (combine jr jc) -> tri jr jc (J x) i j = D x i j) /\ (~ In (i, j) (combine jr jc) -> tri jr jc (J x) i j = 0)) /\
    (forall y i j, List.length y = N -> (i < num_con pr)%nat -> (j < N)%nat -> phys y x0 -> (match fixed with Some s => mesh_scale_asked s cs = s | None => j <> (N - 1)%nat end) -> D y i j <> 0 -> In (i, j) (combine jr jc)) /\
    forall fac lam, List.length lam = num_con pr -> exists V hr hc, snd (prob_hessianstructure pr) = Ok (hr, hc) /\
      (forall x, List.length x = N -> snd (prob_hessian pr x lam fac) = Ok (V x)) /\
      exists g, is_gradient N (fun x => fac * F x + vdot lam (C x)) g /\ forall x i j, List.length x = N -> (i < N)%nat -> (j < N)%nat -> (i <= j)%nat -> pderiv (fun y => g y i) x j (tri hr hc (V x) i j).
Proof.
  intros jac hess roots P M cfg fixed p x0 cs k AD OR N1 D T TM PEN HI PL SC PF.
  destruct (C60_jax_exact jac hess P M (cf_con cfg) AD D T) as [MO X].
  exact (C56_derivatives roots P (jax_model jac hess M) cfg fixed p x0 cs k OR N1 (dc_states M _ D) MO TM PEN HI PL SC X PF).
Qed.
Print Assumptions C60_condensed_derivatives.
