(** C71, continued: automatic differentiation on the domain of the model. *)
From Verif Require Import Base RBase TreeModel UtilsModel UtilsProofs IoModel CollocModel CollocProofs CollocProps MeshModel MeshProps OcpModel OcpSpec NlpModel NlpSpec AlgModel AlgSpec AlgProofs AlgProps ConvModel ConvSpec
  CyclicSpec BoundModel BoundSpec ScaleModel ScaleSpec ObjSpec BuildModel BuildSpec BuildProps3 JaxModel JaxSpec JaxProofs LocSpec LocJaxSpec LocProofs LocProofs3 LocProofs4 LocProps.
Import ListNotations.
Open Scope R_scope.

(** the names and the shapes are in order whatever automatic differentiation returns *)
Lemma jax_model_ok : forall jac hess P (M : smodel P) con, declared_ok M con -> model_ok (jax_model jac hess M) con.
Proof.
  intros jac hess P M con D. pose proof (declared_names M con D) as HN. pose proof (fun q m => declared_forward M con D q m) as HF.
  destruct (proj2 (C34_jacobian_structure (names_of M con) HN)) as (jr & jc & EJ & LJ & NJ & IJ & BJ).
  { change (names_of M con "states") with (m_states M). pose proof (dc_states M con D) as S0. destruct (m_states M); [congruence|cbn; lia]. }
  { rewrite nres. change (names_of M con "states") with (m_states M). pose proof (dc_states M con D) as S0. destruct (m_states M); [congruence|cbn; lia]. }
  destruct (C34_hessian_structure (names_of M con) HN) as (hr & hc & EH & LH & NH & IH).
  assert (forall i, nonlinear (names_of M con) i -> (i < num_implicit_var (names_of M con))%nat) as NL.
  { intros i [H|H]; apply (belongs_iff _ HN) in H; try (unfold flat_groups; simpl; auto); rewrite (nvar _ HN); unfold off in H; cbn in H; cbn; lia. }
  assert (m_js (jax_model jac hess M) con = (jr, jc)) as MJ by (cbn [jax_model m_js]; now rewrite EJ).
  assert (m_hs (jax_model jac hess M) con = (hr, hc)) as MH by (cbn [jax_model m_hs]; now rewrite EH).
  assert (forall (l m : list nat) a b, List.length l = List.length m -> (forall r c, In (r, c) (combine l m) -> (r < a)%nat /\ (c < b)%nat) -> Forall (fun r => (r < a)%nat) l /\ Forall (fun c => (c < b)%nat) m) as FB.
  { induction l as [|x l IHl]; intros [|y m] a b L H; try discriminate; [split; constructor|]. destruct (H x y ltac:(now left)) as [H1 H2]. destruct (IHl m a b ltac:(now injection L) ltac:(intros r c Hr; apply H; now right)). split; constructor; assumption. }
  constructor.
  - exact HN.
  - exact (dc_dots M con D).
  - exact HF.
  - intros w m p Lw. rewrite MJ. cbn [jax_model m_jac]. rewrite EJ. unfold jax_jac, extract_sparse. cbn [fst snd structure_of]. now rewrite map2_length.
  - intros w l m p Lw Ll. rewrite MH. cbn [jax_model m_hess]. rewrite EH. unfold jax_hess, extract_sparse. cbn [fst snd structure_of]. now rewrite map2_length.
  - rewrite MJ. cbn [fst snd]. split; [exact LJ|]. apply (FB jr jc _ _ LJ). exact BJ.
  - rewrite MH. cbn [fst snd]. split; [exact LH|]. apply (FB hr hc _ _ LH). intros r c H. apply IH in H. destruct H. split; now apply NL.
Qed.

(** As C60_jax_exact, on the domain: if automatic differentiation is right for the residual of this model on its domain and the model has second
    derivatives there, then the derivatives read at the declared structure are the full derivatives there. *)
Theorem C71_jax_exact : forall jac hess P (M : smodel P) con dom p, declared_ok M con -> open_domain M dom -> twice_differentiable_on M dom con p -> autodiff_model jac hess M dom con p ->
  model_ok (jax_model jac hess M) con /\ derivatives_on (jax_model jac hess M) dom con p.
Proof.
  intros jac hess P M con dom p D OD T AD. split; [now apply jax_model_ok|]. pose proof (declared_names M con D) as HN. pose proof (fun q m => declared_forward M con D q m) as HF.
  destruct (proj2 (C34_jacobian_structure (names_of M con) HN)) as (jr & jc & EJ & LJ & NJ & IJ & BJ).
  { change (names_of M con "states") with (m_states M). pose proof (dc_states M con D) as S0. destruct (m_states M); [congruence|cbn; lia]. }
  { rewrite nres. change (names_of M con "states") with (m_states M). pose proof (dc_states M con D) as S0. destruct (m_states M); [congruence|cbn; lia]. }
  destruct (C34_hessian_structure (names_of M con) HN) as (hr & hc & EH & LH & NH & IH).
  assert (m_js (jax_model jac hess M) con = (jr, jc)) as MJ by (cbn [jax_model m_js]; now rewrite EJ).
  assert (m_hs (jax_model jac hess M) con = (hr, hc)) as MH by (cbn [jax_model m_hs]; now rewrite EH).
  assert (forall w mesh p, m_jac (jax_model jac hess M) con w mesh p = map2 (jac (residual (names_of M con) (m_forward M p) mesh) w) jr jc) as VJ by (intros w mesh q; cbn [jax_model m_jac]; rewrite EJ; reflexivity).
  assert (forall w l mesh p, m_hess (jax_model jac hess M) con w l mesh p = map2 (hess (fun y => vdot l (residual (names_of M con) (m_forward M p) mesh y)) w) hr hc) as VH by (intros w l mesh q; cbn [jax_model m_hess]; rewrite EH; reflexivity).
  intros mesh. change (names_of (jax_model jac hess M) con) with (names_of M con). change (m_forward (jax_model jac hess M)) with (m_forward M). change (within (jax_model jac hess M) dom mesh) with (within M dom mesh). cbv zeta. rewrite MJ, MH. cbn [fst snd].
  destruct (AD mesh) as [AJ AH]. split.
  - destruct (residual_jacobian_on M con dom p mesh D OD T) as [J HJ]. apply AJ in HJ. intros x i j Lx HD Hi Hj. cbn beta. rewrite VJ.
    destruct (tri_extract (jac (residual (names_of M con) (m_forward M p) mesh) x) jr jc i j LJ NJ) as [A B].
    destruct (in_dec (fun a b : nat * nat => ltac:(decide equality; apply Nat.eq_dec)) (i, j) (combine jr jc)) as [I|I].
    + rewrite A by assumption. now apply HJ.
    + rewrite B by assumption. apply (C34_jacobian_complete (names_of M con) (m_forward M p) mesh x i j HN (HF p mesh) Lx Hi Hj). rewrite <- IJ. assumption.
  - intros l Ll. destruct (lagrangian_hessian_on M con dom p mesh D OD T l Ll) as [H HH]. apply (AH l H Ll) in HH. destruct HH as (g & G & HH). exists g. split; [exact G|]. intros x i j Lx HD Hi Hj _. cbn beta. rewrite VH.
    destruct (tri_extract (hess (fun y => vdot l (residual (names_of M con) (m_forward M p) mesh y)) x) hr hc i j LH NH) as [A B].
    destruct (in_dec (fun a b : nat * nat => ltac:(decide equality; apply Nat.eq_dec)) (i, j) (combine hr hc)) as [I|I].
    + rewrite A by assumption. apply HH; auto.
    + rewrite B by assumption. apply (lagrangian_zero_on M con dom p mesh D OD T l g x i j Ll G Lx HD Hi Hj). rewrite <- IH. assumption.
Qed.
Print Assumptions C71_jax_exact.

(** hence, for the whole problem *)
Theorem C71_jax_derivatives : forall jac hess roots P (M : smodel P) cfg fixed p cs a dom,
  oracle_ok roots (cf_tns cfg) -> (1 <= cf_n cfg)%nat -> declared_ok M (cf_con cfg) -> (fixed <> None -> In "time" (m_states M)) ->
  (forall w, cf_pen cfg = Some w -> NoDup (keys w) /\ incl (keys w) (m_inputs M)) ->
  history roots (jax_model jac hess M) cfg fixed p cs = Ok a -> Forall plain cs -> Forall (fun c => 0 < sc_v c) (scales_asked (cf_scales cfg) cs) ->
  open_domain M dom -> twice_differentiable_on M dom (cf_con cfg) (params_asked p cs) -> autodiff_model jac hess M dom (cf_con cfg) (params_asked p cs) ->
  (fixed <> None \/ (position_free M /\ forall m m' ds di, dom m ds di -> dom m' ds di)) ->
  let o := a_o a in let N := num_dec (oc_op o) in let st := m_states M in let inp := m_inputs M in
  let now := match fixed with Some s => Some (mesh_scale_asked s cs) | None => None end in
  exists t pl pr, make_transcription roots (cf_tname cfg) (cf_tns cfg) = Ok t /\ points_used (cf_n cfg) (cf_points cfg) pl /\ problem_of (jax_model jac hess M) a = Ok pr /\ p_n pr = N /\
  let inside y := exists x, physical o st inp (cf_con cfg) now (scales_asked (cf_scales cfg) cs) y x /\ stays_in o st inp t (cf_n cfg) pl now dom x in
  roomy N inside /\
  exists F G C J jr jc, prob_jacobianstructure pr = Ok (jr, jc) /\
    (forall x, List.length x = N -> prob_objective pr x = Ok (F x) /\ prob_gradient pr x = Ok (G x) /\ prob_constraints pr x = Ok (C x) /\ prob_jacobian pr x = Ok (J x)) /\
    is_gradient N F (fun x j => vget j (G x)) /\ jacobian_on inside N (num_con pr) C (fun x => tri jr jc (J x)) /\
    forall fac lam, List.length lam = num_con pr -> exists V hr hc, snd (prob_hessianstructure pr) = Ok (hr, hc) /\
      (forall x, List.length x = N -> snd (prob_hessian pr x lam fac) = Ok (V x)) /\
      hessian_on inside (fun i j => (i <= j)%nat) N (fun x => fac * F x + vdot lam (C x)) (fun x => tri hr hc (V x)).
Proof.
  intros jac hess roots P M cfg fixed p cs a dom HO Hn D HT HW HH HP HS OD T AD MF. destruct (C71_jax_exact jac hess P M (cf_con cfg) dom (params_asked p cs) D OD T AD) as [MO X].
  exact (C71_derivatives roots P (jax_model jac hess M) cfg fixed p cs a dom HO Hn (dc_states M _ D) MO HT HW HH HP HS OD X MF).
Qed.
Print Assumptions C71_jax_derivatives.
