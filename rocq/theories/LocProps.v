(** C71: derivatives on the domain of the model. *)
From Verif Require Import Base RBase TreeModel UtilsModel UtilsProofs UtilsProofs2 UtilsProps IoModel CollocModel CollocProofs CollocProps MeshModel MeshProofs MeshProps OcpModel OcpProofs OcpSpec OcpProps NlpModel NlpSpec NlpProofs NlpProofs2 NlpProps NlpProps2 NlpProps3
  AlgModel AlgSpec AlgProofs AlgProps ConvModel ConvSpec ConvProps CyclicModel CyclicSpec CyclicProps ObjModel ObjProps BoundModel BoundSpec BoundProofs BoundProps ScaleModel ScaleSpec ScaleProofs ScaleProps SolverProofs SolverProps BuildModel BuildSpec BuildProofs BuildProofs2 BuildProofs3 BuildProofs4 BuildProofs5 BuildProofs6 BuildProps BuildProps3
  LocSpec LocProofs LocProofs2 LocProofs3.

Lemma conv_on : forall P (u : unitp P) op nmesh scale_fn p T Dw, u_nin u = num_var_stage op -> (0 < num_var_stage op)%nat -> List.length nmesh = num_stages op -> unit_shapes u -> mesh_free u scale_fn -> shift_ok T ->
  (forall k, (k < num_stages op)%nat -> roomy (u_nin u) (Dw k)) ->
  (forall k x, (k < num_stages op)%nat -> List.length x = num_dec op -> jacobian_on (Dw k) (u_nin u) (u_ncon u) (fun w => u_f u w (vget k nmesh * scale_fn x) p) (fun w => tri (fst (u_js u)) (snd (u_js u)) (u_j u w (vget k nmesh * scale_fn x) p))) ->
  (forall k x l, (k < num_stages op)%nat -> List.length x = num_dec op -> List.length l = u_ncon u ->
    hessian_on (Dw k) T (u_nin u) (fun w => vdot l (u_f u w (vget k nmesh * scale_fn x) p)) (fun w => tri (fst (u_hs u)) (snd (u_hs u)) (u_h u w l (vget k nmesh * scale_fn x) p))) ->
  exists c0, make_conv u op nmesh scale_fn p = Ok c0 /\ c_nin c0 = num_dec op /\ c_ncon c0 = (num_stages op * u_ncon u)%nat /\
    jacobian_on (stages_in op Dw) (c_nin c0) (c_ncon c0) (c_f c0) (fun x => tri (c_jr c0) (c_jc c0) (c_j c0 x)) /\
    forall lam, List.length lam = c_ncon c0 -> hessian_on (stages_in op Dw) T (c_nin c0) (fun x => vdot lam (c_f c0 x)) (fun x => tri (c_hr c0) (c_hc c0) (c_h c0 x lam)).
Proof.
  intros P u op nmesh scale_fn p T Dw Hw Hs Hm Sh MF HT RM UJ UH. destruct (conv_wf P u op nmesh scale_fn p Hw Hs Hm Sh) as (js & hs & c0 & ES & EC & W & E1 & E2 & E3 & E4 & E5 & E6 & E7 & E8 & E9).
  exists c0. split; [assumption|]. split; [assumption|]. split; [assumption|]. split.
  - destruct (conv_jacobian_on u op nmesh scale_fn p Hw Hs Hm Sh MF Dw RM UJ) as (js' & hs' & ES' & D). rewrite ES in ES'. injection ES' as <- <-. rewrite E1, E2, E5, E6, E7, E8. exact D.
  - intros lam Ll. rewrite E6 in Ll. destruct (conv_hessian_on u op nmesh scale_fn p Hw Hs Hm Sh MF Dw RM UJ T UH lam HT Ll) as (js' & hs' & ES' & D). rewrite ES in ES'. injection ES' as <- <-. rewrite E3, E4, E5, E7, E9. exact D.
Qed.
Lemma jacobian_on_sub : forall (D D' : list R -> Prop) n m f J, (forall x, List.length x = n -> D' x -> D x) -> jacobian_on D n m f J -> jacobian_on D' n m f J.
Proof. intros D D' n m f J S H x i j L HD Hi Hj. apply H; auto. Qed.
Lemma hessian_on_sub : forall (D D' : list R -> Prop) T n f H, (forall x, List.length x = n -> D' x -> D x) -> hessian_on D T n f H -> hessian_on D' T n f H.
Proof. intros D D' T n f H S (g & G & HH). exists g. split; [intros x j L HD Hj; apply G; auto|]. intros x j k L HD Hj Hk HT. apply HH; auto. Qed.
Lemma roomy_sub : forall (D D' : list R -> Prop) n, (forall x, List.length x = n -> (D' x <-> D x)) -> roomy n D -> roomy n D'.
Proof. intros D D' n S RM x k L HD Hk. apply S in HD; [|assumption]. destruct (RM x k L HD Hk) as (e & He & HE). exists e. split; [assumption|]. intros t Ht. apply S; [now rewrite upd_length|auto]. Qed.

(** As C51_derivatives, for a model whose derivative functions are exact on an open domain of positions, states and inputs only: the gradient is exact
    everywhere, and the jacobian and the hessian of the lagrangian are exact at every vector whose physical values stay in the domain at all stages. *)
Theorem C71_derivatives : forall roots P (M : smodel P) cfg fixed p cs a dom,
  oracle_ok roots (cf_tns cfg) -> (1 <= cf_n cfg)%nat -> m_states M <> [] -> model_ok M (cf_con cfg) -> (fixed <> None -> In "time" (m_states M)) ->
  (forall w, cf_pen cfg = Some w -> NoDup (keys w) /\ incl (keys w) (m_inputs M)) ->
  history roots M cfg fixed p cs = Ok a -> Forall plain cs -> Forall (fun c => 0 < sc_v c) (scales_asked (cf_scales cfg) cs) ->
  open_domain M dom -> derivatives_on M dom (cf_con cfg) (params_asked p cs) ->
  (fixed <> None \/ (position_free M /\ forall m m' ds di, dom m ds di -> dom m' ds di)) ->
  let o := a_o a in let N := num_dec (oc_op o) in let st := m_states M in let inp := m_inputs M in
  let now := match fixed with Some s => Some (mesh_scale_asked s cs) | None => None end in
  exists t pl pr, make_transcription roots (cf_tname cfg) (cf_tns cfg) = Ok t /\ points_used (cf_n cfg) (cf_points cfg) pl /\ problem_of M a = Ok pr /\ p_n pr = N /\
  let inside y := exists x, physical o st inp (cf_con cfg) now (scales_asked (cf_scales cfg) cs) y x /\ stays_in o st inp t (cf_n cfg) pl now dom x in
  roomy N inside /\
  exists F G C J jr jc, prob_jacobianstructure pr = Ok (jr, jc) /\
    (forall x, List.length x = N -> prob_objective pr x = Ok (F x) /\ prob_gradient pr x = Ok (G x) /\ prob_constraints pr x = Ok (C x) /\ prob_jacobian pr x = Ok (J x)) /\
    is_gradient N F (fun x j => vget j (G x)) /\ jacobian_on inside N (num_con pr) C (fun x => tri jr jc (J x)) /\
    forall fac lam, List.length lam = num_con pr -> exists V hr hc, snd (prob_hessianstructure pr) = Ok (hr, hc) /\
      (forall x, List.length x = N -> snd (prob_hessian pr x lam fac) = Ok (V x)) /\
      hessian_on inside (fun i j => (i <= j)%nat) N (fun x => fac * F x + vdot lam (C x)) (fun x => tri hr hc (V x)).
Proof.
  intros roots P M cfg fixed p cs a dom HO Hn Hst MO HT HW HH HP HS OD MD MF.
  destruct (the_facts roots P M cfg fixed p cs a HO Hn Hst MO HH HP) as (o & fm & pl & ops & h & F).
  rewrite (fa_o _ _ _ _ _ _ _ _ _ _ _ _ _ F). cbv zeta. set (N := num_dec (oc_op o)).
  destruct (the_pieces roots P M cfg fixed p cs a MO HT HW o fm pl ops h F) as (ob & ob2 & c1 & c2 & c3 & C).
  destruct (the_problem roots P M cfg fixed p cs a o fm pl ops h ob ob2 c1 c2 c3 F C) as (EP & PI).
  set (pr := assembled (num_dec (oc_op o)) ob ob2 c1 c2 c3 (s_dec (a_sc a)) (s_alg (a_sc a)) (s_cont (a_sc a))) in *.
  pose proof (fa_built _ _ _ _ _ _ _ _ _ _ _ _ _ F) as B. pose proof (fa_sok _ _ _ _ _ _ _ _ _ _ _ _ _ F) as SK. pose proof (fa_sc _ _ _ _ _ _ _ _ _ _ _ _ _ F) as ESC.
  assert (reachable N pr) as RE by (exact (prob_reachable pr PI eq_refl)).
  assert (p_scales pr = s_dec (a_sc a)) as EPS by reflexivity.
  assert (forall l, Forall (fun v => 0 < v) l -> Forall (fun v => v <> 0) l) as NZ by (intros l Hl; eapply Forall_impl; [|exact Hl]; intros; cbv beta in *; lra).
  assert (Forall (fun v => v <> 0) (p_scales pr)) as DP by (apply NZ; rewrite EPS, ESC; exact (dec_pos _ _ _ _ _ _ _ M _ B h _ SK HS)).
  destruct (time_piece _ _ _ _ _ _ _ _ _ _ B) as (ob' & g0 & T1 & T2 & TG & TE & TH & _); [intros X; apply HT; intro Y; apply X; unfold fixed_now; now rewrite Y|].
  pose proof (co_obj _ _ _ _ _ _ _ _ _ _ _ _ _ _ C) as EO. rewrite T1 in EO. injection EO as ->.
  assert (forall q, ob2 = Some q -> is_gradient N (o_f q) (fun x j => vget j (o_g q x)) /\ is_hessian N (o_f q) (fun x => tri (o_hr q) (o_hc q) (o_h q x))) as PQ.
  { intros q ->. pose proof (co_pen _ _ _ _ _ _ _ _ _ _ _ _ _ _ C) as D. destruct (cf_pen cfg) as [w|]; [|contradiction]. destruct (HW w eq_refl) as [W1 W2]. destruct (penalty_piece _ _ _ _ _ _ _ _ _ _ B w W1 W2) as (q' & g & Q1 & _ & Q3 & Q4 & Q5 & _). destruct D as (D & _). rewrite D in Q1. injection Q1 as <-.
    split; [|exact Q5]. intros x j Hx Hj. rewrite (Q4 x Hx). now apply Q3. }
  assert (shift_ok (fun i j => (i <= j)%nat)) as SH by (intros u v k; lia).
  set (scf := fun x => or_zero (get_mesh_scale o x)). set (z := repeat 0 N). set (Dw := fun k => within M dom (vget k fm * scf z)).
  assert (forall k x w, within M dom (vget k fm * scf x) w <-> Dw k w) as DM.
  { intros k x w. unfold Dw. destruct MF as [MF|[_ MF]].
    - pose proof (built_ok _ _ _ _ _ _ _ _ _ _ B) as (_ & _ & _ & _ & _ & _ & _ & _ & EF & _). unfold scf, get_mesh_scale. rewrite EF. unfold fixed_now. destruct fixed; [reflexivity|congruence].
    - unfold within. split; apply MF. }
  destruct (conv_on P (unit_problem M (cf_con cfg)) (oc_op o) fm scf (params_asked p cs) (fun i j => (i <= j)%nat) Dw) as (c0 & E0 & K1 & K2 & KJ & KH);
    [symmetry; exact (nvs_eq _ _ _ _ _ _ _ M _ B)|exact (nvs_pos _ _ _ _ _ _ _ M _ B)|apply F|exact (shapes M (cf_con cfg) MO)| |exact SH| | | |].
  { destruct MF as [MF|[MF _]]; [left|right].
    - intros x y. pose proof (built_ok _ _ _ _ _ _ _ _ _ _ B) as (_ & _ & _ & _ & _ & _ & _ & _ & EF & _). unfold scf, get_mesh_scale. rewrite EF. unfold fixed_now. destruct fixed; [reflexivity|congruence].
    - intros x m m' q. cbn [unit_problem u_f]. unfold flat_implicit, implicit, forward_with_arrays. destruct (array_to_dict (names_of M (cf_con cfg) "states") _) as [ds|]; [|reflexivity]. cbn [bind]. destruct (array_to_dict (names_of M (cf_con cfg) "inputs") _) as [di|]; [|reflexivity]. cbn [bind]. now rewrite (MF q ds di m m'). }
  { intros k Hk. exact (within_roomy roots pl M (cf_con cfg) MO dom OD _). }
  { intros k x Hk Lx. apply (jacobian_on_sub (within M dom (vget k fm * scf x))); [intros w _ Hw; now apply DM|]. exact (proj1 (MD (vget k fm * scf x))). }
  { intros k x l Hk Lx Ll. apply (hessian_on_sub (within M dom (vget k fm * scf x))); [intros w _ Hw; now apply DM|]. exact (proj2 (MD (vget k fm * scf x)) l Ll). }
  assert (c0 = c1) as ->. { pose proof (co_1 _ _ _ _ _ _ _ _ _ _ _ _ _ _ C) as X. unfold algebra_con in X. rewrite (fa_o _ _ _ _ _ _ _ _ _ _ _ _ _ F), (fa_con _ _ _ _ _ _ _ _ _ _ _ _ _ F), (fa_mesh _ _ _ _ _ _ _ _ _ _ _ _ _ F), (fa_p _ _ _ _ _ _ _ _ _ _ _ _ _ F) in X. unfold scf in E0. congruence. }
  set (D := stages_in (oc_op o) Dw) in *.
  assert (roomy N D) as RD.
  { unfold D, N. refine (stages_roomy (unit_problem M (cf_con cfg)) (oc_op o) fm scf (params_asked p cs) _ _ _ _ _ Dw _).
    - symmetry; exact (nvs_eq _ _ _ _ _ _ _ M _ B).
    - exact (nvs_pos _ _ _ _ _ _ _ M _ B).
    - apply F.
    - exact (shapes M (cf_con cfg) MO).
    - destruct MF as [MF|[MF _]]; [left|right].
      + intros x y. pose proof (built_ok _ _ _ _ _ _ _ _ _ _ B) as (_ & _ & _ & _ & _ & _ & _ & _ & EF & _). unfold scf, get_mesh_scale. rewrite EF. unfold fixed_now. destruct fixed; [reflexivity|congruence].
      + intros x m m' q. cbn [unit_problem u_f]. unfold flat_implicit, implicit, forward_with_arrays. destruct (array_to_dict (names_of M (cf_con cfg) "states") _) as [ds|]; [|reflexivity]. cbn [bind]. destruct (array_to_dict (names_of M (cf_con cfg) "inputs") _) as [di|]; [|reflexivity]. cbn [bind]. now rewrite (MF q ds di m m').
    - intros k Hk. exact (within_roomy roots pl M (cf_con cfg) MO dom OD _). }
  destruct (continuity_piece _ _ _ _ _ _ _ _ _ _ B) as (c2' & D1 & _ & D2 & D3 & _ & _ & DJ). pose proof (co_2 _ _ _ _ _ _ _ _ _ _ _ _ _ _ C) as E2. rewrite D1 in E2. injection E2 as ->.
  assert (forall c, c3 = Some c -> is_jacobian N (c_ncon c) (c_f c) (fun x => tri (c_jr c) (c_jc c) (c_j c x)) /\ Forall (fun v => v <> 0) (c_con c) /\
    forall l, List.length l = c_ncon c -> is_hessian_on (fun i j => (i <= j)%nat) N (fun x => vdot l (c_f c x)) (fun x => tri (c_hr c) (c_hc c) (c_h c x l))) as P3.
  { intros c ->. pose proof (co_3 _ _ _ _ _ _ _ _ _ _ _ _ _ _ C) as Q. pose proof (fa_cyc _ _ _ _ _ _ _ _ _ _ _ _ _ F) as E. destruct (a_cyc a) as [cv|]; [|contradiction]. destruct Q as (EC & _). destruct E as (E1 & E3 & _).
    destruct (cyclic_piece _ _ _ _ _ _ _ _ _ _ B (cf_noncyclic cfg) cv (mo_dots _ _ MO) E1 E3) as (c' & X1 & _ & _ & X4 & X5 & _ & X7). rewrite EC in X1. injection X1 as <-. rewrite X4. split; [exact X7|]. split.
    - rewrite X5. apply Forall_forall. intros v Hv. apply repeat_spec in Hv. subst v. lra.
    - intros l Hl. exact (cyclic_hess _ _ _ _ _ _ _ _ _ _ B _ cv c l (mo_dots _ _ MO) E1 E3 EC Hl). }
  assert (forall c, In c (values (p_cons pr)) -> exists c' s k, c = rescaled c' s k /\ Forall (fun v => v <> 0) k /\ jacobian_on D N (c_ncon c') (c_f c') (fun x => tri (c_jr c') (c_jc c') (c_j c' x)) /\
    forall l, List.length l = c_ncon c' -> hessian_on D (fun i j => (i <= j)%nat) N (fun x => vdot l (c_f c' x)) (fun x => tri (c_hr c') (c_hc c') (c_h c' x l))) as PC.
  { intros c Hc. cbn in Hc. destruct Hc as [<-|[<-|Hc]].
    - exists c1, (s_dec (a_sc a)), (s_alg (a_sc a)). split; [reflexivity|]. split; [rewrite ESC; exact (alg_pos _ _ _ _ _ _ _ M _ B h _ SK HS)|]. rewrite K1 in KJ, KH. split; [exact KJ|exact KH].
    - exists c2, (s_dec (a_sc a)), (s_cont (a_sc a)). split; [reflexivity|]. split; [rewrite ESC; exact (cont_pos _ _ _ _ _ _ _ M _ B h _ SK HS)|]. rewrite D3. split; [apply jd_of; exact DJ|]. intros l Hl. apply hd_of. exact (continuity_hess _ _ _ _ _ _ _ _ _ _ B c2 l D1 Hl).
    - destruct c3 as [c3|]; [|contradiction]. cbn in Hc. destruct Hc as [<-|[]]. destruct (P3 c3 eq_refl) as (Y1 & Y2 & Y3). exists c3, (s_dec (a_sc a)), (c_con c3). split; [reflexivity|]. split; [assumption|]. split; [now apply jd_of|]. intros l Hl. apply hd_of. now apply Y3. }
  exists (oc_tr o), pl, pr. split; [exact (fa_tr _ _ _ _ _ _ _ _ _ _ _ _ _ F)|]. split; [exact (fa_pts _ _ _ _ _ _ _ _ _ _ _ _ _ F)|]. split; [exact EP|]. split; [reflexivity|].
  match goal with |- roomy N ?I /\ _ => set (inside := I) end.
  assert (forall y, List.length y = N -> (inside y <-> unscaled D (p_scales pr) y)) as IN.
  { intros y Ly. assert (List.length (vmul y (p_scales pr)) = N) as Lv by (rewrite vmul_length; [assumption|]; rewrite Ly, EPS, ESC; symmetry; exact (proj1 (dec_len _ _ _ _ _ _ _ M _ B h _ SK))).
    unfold inside, unscaled. 
    pose proof (fun x => physical_iff _ _ _ _ _ _ _ M _ B (fa_ns _ _ _ _ _ _ _ _ _ _ _ _ _ F) h _ SK y x Ly) as PH. rewrite <- ESC in PH. change (s_dec (a_sc a)) with (p_scales pr) in PH. change (fixed_now P fixed cs) with (match fixed with Some s => Some (mesh_scale_asked s cs) | None => None end) in PH.
    pose proof (stays_iff _ _ _ _ _ _ _ fm pl M (cf_con cfg) B MO (fa_lfm _ _ _ _ _ _ _ _ _ _ _ _ _ F) (fa_ns _ _ _ _ _ _ _ _ _ _ _ _ _ F) (fa_hm _ _ _ _ _ _ _ _ _ _ _ _ _ F) dom (vmul y (p_scales pr)) Lv) as SI. change (fixed_now P fixed cs) with (match fixed with Some s => Some (mesh_scale_asked s cs) | None => None end) in SI.
    split.
    - intros (x & H1 & H2). apply PH in H1. subst x. destruct SI as [SI _]. specialize (SI H2). clear H2; rename SI into H2. intros k Hk. apply (DM k (vmul y (p_scales pr))). now apply H2.
    - intros H. exists (vmul y (p_scales pr)). split; [now apply PH|]. apply SI. intros k Hk. apply (DM k (vmul y (p_scales pr))). now apply H. }
  assert (roomy N (unscaled D (p_scales pr))) as RU by (apply unscaled_roomy; [rewrite EPS, ESC; exact (proj1 (dec_len _ _ _ _ _ _ _ M _ B h _ SK))|assumption|assumption]).
  split; [now apply (roomy_sub (unscaled D (p_scales pr)))|].
  destruct (C16_gradient N pr RE ltac:(discriminate)) as (Fo & G & H1 & H2).
  { intros o' Ho. cbn in Ho. destruct Ho as [<-|Ho]; [|destruct ob2 as [q|]; [|contradiction]; destruct Ho as [<-|[]]; exact (proj1 (PQ q eq_refl))]. cbn [orescaled o_f o_g]. intros x j Hx Hj. rewrite (TE x Hx). now apply TG. }
  destruct (prob_jacobian_on D N pr RE ltac:(discriminate) DP) as (Cc & J & jr & jc & H3 & H4 & H5).
  { intros c Hc. destruct (PC c Hc) as (c' & s & k & -> & Y1 & Y2 & _). cbn [rescaled c_con c_ncon c_f c_jr c_jc c_j]. auto. }
  exists Fo, G, Cc, J, jr, jc. split; [exact H3|]. split; [intros x Hx; destruct (H1 x Hx) as (Y1 & Y2 & _); destruct (H4 x Hx) as (Y3 & Y4); auto|]. split; [exact H2|].
  split; [apply (jacobian_on_sub (unscaled D (p_scales pr))); [intros y Ly; now apply IN|exact H5]|].
  intros fac lam Hl. destruct (prob_hessian_on D N pr fac lam RD RE ltac:(discriminate) ltac:(discriminate) eq_refl DP Hl) as (L & V & hr & hc & Z1 & Z2 & Z3).
  { intros c l Hc Hll. destruct (PC c Hc) as (c' & s & k & -> & _ & _ & Y3). cbn [rescaled c_con c_ncon c_f c_hr c_hc c_h] in *. auto. }
  { intros o' Ho. cbn in Ho. destruct Ho as [<-|Ho]; [|destruct ob2 as [q|]; [|contradiction]; destruct Ho as [<-|[]]; apply hess_on_of; exact (proj2 (PQ q eq_refl))]. cbn [orescaled o_f o_hr o_hc o_h]. apply hess_on_of. exact TH. }
  exists V, hr, hc. split; [exact Z1|]. split; [intros x Hx; apply (Z2 x Hx)|]. apply (hessian_on_sub (unscaled D (p_scales pr))); [intros y Ly; now apply IN|].
  eapply (hd_ext _ _ _ RU); [|reflexivity|exact Z3]. intros x Hx _. destruct (Z2 x Hx) as (_ & f & gg & Y1 & Y2 & ->). destruct (H1 x Hx) as (Y3 & _). destruct (H4 x Hx) as (Y4 & _). congruence.
Qed.
Print Assumptions C71_derivatives.
