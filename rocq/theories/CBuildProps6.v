(** C56, continued: the structure of the jacobian is guessed at one random vector. *)
From Verif Require Import Base RBase TreeModel UtilsModel IoModel CollocModel CollocProps MeshModel OcpModel OcpSpec OcpProofs OcpProofs2 NlpModel NlpSpec NlpProofs NlpProofs2 AlgModel AlgSpec ConvModel ConvSpec CyclicSpec BoundModel BoundSpec ScaleModel ScaleSpec BuildModel BuildSpec BuildProofs BuildProofs2 BuildProofs4 BuildProofs5 BuildProofs6 BuildProps BuildProps2 BuildProps4
  CondModel CondSpec CondProofs CondProofs2 CBuildModel CBuildSpec CBuildProofs CBuildProofs2 CBuildProofs3 CBuildProofs4 CBuildProofs7 CBuildProps CBuildProps2 CBuildProps3 CBuildProps4.

(** x' = max(0, u)^3 *)
Definition ramp (u : R) : R := if Rle_dec u 0 then 0 else u * u * u.
Definition ramp1 (u : R) : R := if Rle_dec u 0 then 0 else 3 * (u * u).
Definition ramp2 (u : R) : R := if Rle_dec u 0 then 0 else 6 * u.
Definition rampm : smodel unit := {|
  m_states := ["x"]; m_inputs := ["u"]; m_outputs := []; m_residuals := [];
  m_forward := fun _ _ di _ => Ok ([("x", ramp (get0 "u" di))], []);
  m_jac := fun _ w _ _ => [ramp1 (vget 1 w); -1]; m_hess := fun _ w l _ _ => [vget 0 l * ramp2 (vget 1 w)];
  m_js := fun _ => ([0%nat; 0%nat], [1%nat; 2%nat]); m_hs := fun _ => ([1%nat], [1%nat]) |}.
Definition ramp_cfg : sim_config := {| cf_n := 1; cf_points := None; cf_tname := "Trapezoidal"; cf_tns := None; cf_cyclic := false; cf_noncyclic := []; cf_con := []; cf_pen := None; cf_bounds := []; cf_bcs := []; cf_scales := [] |}.

Lemma lim_local : forall f g x l d, 0 < d -> (forall y, Rabs (y - x) < d -> f y = g y) -> derivable_pt_lim g x l -> derivable_pt_lim f x l.
Proof.
  intros f g x l d Hd E H e He. destruct (H e He) as [[dl Hdl] K]. cbn in K. assert (0 < Rmin d dl) as Hm by (apply Rmin_pos; assumption). exists (mkposreal _ Hm). cbn. intros h Nh Lh.
  rewrite !E; [apply K; [exact Nh|eapply Rlt_le_trans; [exact Lh|apply Rmin_r]]|rewrite Rminus_diag_eq by reflexivity; rewrite Rabs_R0; exact Hd|]. replace (x + h - x) with h by ring. eapply Rlt_le_trans; [exact Lh|apply Rmin_l].
Qed.
Lemma lim_flat : forall f, f 0 = 0 -> (forall h, Rabs h < 1 -> Rabs (f h) <= 6 * (h * h)) -> derivable_pt_lim f 0 0.
Proof.
  intros f E B e He. assert (0 < Rmin 1 (e / 6)) as Hm by (apply Rmin_pos; lra). exists (mkposreal _ Hm). cbn. intros h Nh Lh. rewrite Rplus_0_l, E, !Rminus_0_r. unfold Rdiv. rewrite Rabs_mult.
  assert (Rabs h < 1) as L1 by (eapply Rlt_le_trans; [exact Lh|apply Rmin_l]). assert (Rabs h < e / 6) as L2 by (eapply Rlt_le_trans; [exact Lh|apply Rmin_r]). assert (0 < Rabs h) as P by (apply Rabs_pos_lt; exact Nh).
  rewrite Rabs_inv. apply Rmult_lt_reg_r with (Rabs h); [exact P|]. rewrite Rmult_assoc, Rinv_l, Rmult_1_r by lra. eapply Rle_lt_trans; [apply B, L1|]. replace (h * h) with (Rabs h * Rabs h) by (rewrite <- Rabs_mult; apply Rabs_pos_eq; nra). nra.
Qed.
Lemma ramp_lim : forall u, derivable_pt_lim ramp u (ramp1 u).
Proof.
  intro u. unfold ramp1. destruct (Rle_dec u 0) as [H|H].
  - destruct (Req_dec u 0) as [->|N].
    + apply lim_flat; [unfold ramp; destruct (Rle_dec 0 0); [reflexivity|lra]|]. intros h Hh. unfold ramp. destruct (Rle_dec h 0); [rewrite Rabs_R0; nra|]. rewrite Rabs_pos_eq in * by nra. nra.
    + apply lim_local with (g := fct_cte 0) (d := - u); [lra| |apply derivable_pt_lim_const]. intros y Hy. apply Rabs_def2 in Hy. unfold ramp. destruct (Rle_dec y 0); [reflexivity|lra].
  - apply lim_local with (g := fun y => y * y * y) (d := u); [lra| |].
    + intros y Hy. apply Rabs_def2 in Hy. unfold ramp. destruct (Rle_dec y 0); [lra|reflexivity].
    + replace (3 * (u * u)) with ((1 * u + u * 1) * u + (u * u) * 1) by ring. apply (derivable_pt_lim_mult (fun y => y * y) id); [apply (derivable_pt_lim_mult id id)|]; apply derivable_pt_lim_id.
Qed.
Lemma ramp1_lim : forall u, derivable_pt_lim ramp1 u (ramp2 u).
Proof.
  intro u. unfold ramp2. destruct (Rle_dec u 0) as [H|H].
  - destruct (Req_dec u 0) as [->|N].
    + apply lim_flat; [unfold ramp1; destruct (Rle_dec 0 0); [reflexivity|lra]|]. intros h Hh. unfold ramp1. destruct (Rle_dec h 0); [rewrite Rabs_R0; nra|]. rewrite Rabs_pos_eq in * by nra. nra.
    + apply lim_local with (g := fct_cte 0) (d := - u); [lra| |apply derivable_pt_lim_const]. intros y Hy. apply Rabs_def2 in Hy. unfold ramp1. destruct (Rle_dec y 0); [reflexivity|lra].
  - apply lim_local with (g := fun y => 3 * (y * y)) (d := u); [lra| |].
    + intros y Hy. apply Rabs_def2 in Hy. unfold ramp1. destruct (Rle_dec y 0); [lra|reflexivity].
    + replace (6 * u) with (3 * (1 * u + u * 1)) by ring. apply (derivable_pt_lim_scal (fun y => y * y) 3). apply (derivable_pt_lim_mult id id); apply derivable_pt_lim_id.
Qed.
Lemma three : forall (w : list R), List.length w = 3%nat -> exists a b c, w = [a; b; c].
Proof. intros [|a [|b [|c [|? ?]]]]; try discriminate. intros _. now exists a, b, c. Qed.
Lemma pd_ramp : forall f f' (x : list R) i j, (forall u, derivable_pt_lim f u (f' u)) -> (j < List.length x)%nat -> pderiv (fun w => f (vget i w)) x j (if Nat.eqb i j then f' (vget i x) else 0).
Proof.
  intros f f' x i j H Hj. unfold pderiv. destruct (Nat.eqb_spec i j) as [->|N].
  - apply lim_local with (g := f) (d := 1); [lra| |apply H]. intros y _. f_equal. now rewrite vget_upd_same.
  - apply lim_local with (g := fct_cte (f (vget i x))) (d := 1); [lra| |apply derivable_pt_lim_const]. intros y _. unfold fct_cte. f_equal. rewrite vget_upd_other; auto.
Qed.
Lemma ramp_residual : forall p mesh w, List.length w = 3%nat -> residual (names_of rampm []) (m_forward rampm p) mesh w = [ramp (vget 1 w) - vget 2 w].
Proof. intros p mesh w L. destruct (three w L) as (a & b & c & ->). reflexivity. Qed.
Lemma ramp_derivatives : exact_derivatives rampm [].
Proof.
  intros p mesh nin res. change nin with 3%nat. change (num_implicit_res (names_of rampm [])) with 1%nat. split.
  - intros w i j Lw Hi Hj. assert (i = 0)%nat as -> by lia. apply pderiv_ext_len with (f := fun w => ramp (vget 1 w) - vget 2 w).
    { intros y Ly. unfold res. rewrite ramp_residual by congruence. reflexivity. }
    cbn [rampm m_js m_jac fst snd]. eapply pderiv_eq; [|apply OcpProofs2.pderiv_sub; [apply (pd_ramp ramp ramp1); [exact ramp_lim|lia]|apply pderiv_coord; lia]].
    do 3 (destruct j as [|j]; [cbn; lra|]). lia.
  - intros l Ll. exists (fun w j => nth j [0; vget 0 l * ramp1 (vget 1 w); - vget 0 l] 0). split.
    + intros w j Lw Hj. apply pderiv_ext_len with (f := fun w => vget 0 l * (ramp (vget 1 w) - vget 2 w)).
      { intros y Ly. unfold res. rewrite ramp_residual by congruence. destruct l as [|l0 [|]]; try discriminate. cbn. unfold vget; cbn. lra. }
      eapply pderiv_eq; [|apply pderiv_scal, OcpProofs2.pderiv_sub; [apply (pd_ramp ramp ramp1); [exact ramp_lim|lia]|apply pderiv_coord; lia]].
      do 3 (destruct j as [|j]; [cbn; lra|]). lia.
    + intros w i j Lw Hi Hj. cbn [rampm m_hs m_hess fst snd].
      destruct i as [|[|[|i]]]; [| | |lia]; cbn [nth].
      * eapply pderiv_eq; [|apply pderiv_const]. do 3 (destruct j as [|j]; [cbn; lra|]). lia.
      * eapply pderiv_eq; [|apply pderiv_scal, (pd_ramp ramp1 ramp2); [exact ramp1_lim|lia]]. do 3 (destruct j as [|j]; [cbn; lra|]). lia.
      * eapply pderiv_eq; [|apply pderiv_const]. do 3 (destruct j as [|j]; [cbn; lra|]). lia.
Qed.
Lemma ramp_ok : model_ok rampm [].
Proof.
  constructor.
  - split; [reflexivity|]. split; [|split; intros q Hq; cbn in *; tauto]. intros g Hg. cbn in Hg. repeat (destruct Hg as [<-|Hg]; [cbn; repeat constructor; cbn; intuition discriminate|]). contradiction.
  - intros nm [H|H]; cbn in H; repeat (destruct H as [<-|H]; [reflexivity|]); contradiction.
  - intros p mesh ds di Hs Hi. eexists. eexists. split; [reflexivity|]. split; intros q Hq; cbn in *; tauto.
  - reflexivity.
  - reflexivity.
  - cbn. repeat split; repeat constructor; lia.
  - cbn. repeat split; repeat constructor; lia.
Qed.
Lemma ramp_config_ok : config_ok rampm ramp_cfg None trapezoidal.
Proof. constructor; cbn [ramp_cfg rampm cf_n cf_points cf_tname cf_tns cf_cyclic cf_noncyclic cf_con cf_pen cf_bounds cf_bcs cf_scales m_states m_inputs]; try discriminate; try (intros b []); [lia|apply ramp_ok]. Qed.

Lemma ramp_entry : forall a b c d e f L o fm alg js, make_ocp (fun _ => [-1; 1/3]) "Trapezoidal" None 1 ["x"] ["u"] [] [] [] None None = Ok o -> flat_mesh (oc_mesh o) = Ok fm ->
  make_conv (unit_problem rampm []) (oc_op o) fm (fun x => or_zero (get_mesh_scale o x)) tt = Ok alg -> condensed_jacobianstructure o alg 1 [a; b; c; d; e; f; L] = Ok js -> b <= 0 -> ~ In (0, 1)%nat (combine (fst js) (snd js)).
Proof.
  intros a b c d e f L o fm alg js EO EF EM EJ Hb.
  set (ent := fun r q : nat => match make_ocp (fun _ => [-1; 1/3]) "Trapezoidal" None 1 ["x"] ["u"] [] [] [] None None with Raise _ => 1 | Ok o => match flat_mesh (oc_mesh o) with Raise _ => 1 | Ok fm =>
    match make_conv (unit_problem rampm []) (oc_op o) fm (fun x => or_zero (get_mesh_scale o x)) tt with Raise _ => 1 | Ok alg => match group_indices_in_dec (oc_op o) "states_dot", cont_jac o [a; b; c; d; e; f; L] with
    Ok idx, Ok Jc => chainrule o alg 1 idx Jc (alg_jac alg [a; b; c; d; e; f; L]) r q | _, _ => 1 end end end end).
  assert (ent 0%nat 1%nat = 0) as E0.
  { assert (ramp1 (b * 1) = 0) as R1 by (unfold ramp1; destruct (Rle_dec (b * 1) 0); [reflexivity|lra]).
    cbv -[Rplus Rmult Ropp Rinv Rdiv Rminus IZR ramp1 ramp Rle_dec Rlt_dec total_order_T Req_EM_T]. rewrite R1. unfold Rdiv. ring. }
  unfold condensed_jacobianstructure in EJ. apply bind_ok in EJ. destruct EJ as (idx & E1 & EJ). apply bind_ok in EJ. destruct EJ as (Jc & E2 & EJ).
  unfold ent in E0. rewrite EO, EF, EM, E1, E2 in E0. assert (forall A (x y : A), Ok x = Ok y -> x = y) as OI by (intros A u v X; now injection X). apply OI in EJ. subst js. intro HI. apply in_nonzeros in HI. tauto.
Qed.
Lemma ramp_value : forall a b c d e f L o fm alg v, make_ocp (fun _ => [-1; 1/3]) "Trapezoidal" None 1 ["x"] ["u"] [] [] [] None None = Ok o -> flat_mesh (oc_mesh o) = Ok fm ->
  make_conv (unit_problem rampm []) (oc_op o) fm (fun x => or_zero (get_mesh_scale o x)) tt = Ok alg -> condensed_constraints o alg [a; b; c; d; e; f; L] = Ok v -> vget 0 v = d - a - L * (ramp b + ramp e) / 2.
Proof.
  intros a b c d e f L o fm alg v EO EF EM EV.
  set (val := match make_ocp (fun _ => [-1; 1/3]) "Trapezoidal" None 1 ["x"] ["u"] [] [] [] None None with Raise _ => 1 | Ok o => match flat_mesh (oc_mesh o) with Raise _ => 1 | Ok fm =>
    match make_conv (unit_problem rampm []) (oc_op o) fm (fun x => or_zero (get_mesh_scale o x)) tt with Raise _ => 1 | Ok alg => match condensed_constraints o alg [a; b; c; d; e; f; L] with
    Ok v => vget 0 v | _ => 1 end end end end).
  assert (val = d - a - L * (ramp b + ramp e) / 2) as E0.
  { cbv -[Rplus Rmult Ropp Rinv Rdiv Rminus IZR ramp1 ramp Rle_dec Rlt_dec total_order_T Req_EM_T]. rewrite !Rmult_1_r. field. }
  unfold val in E0. rewrite EO, EF, EM, EV in E0. exact E0.
Qed.

(** "the risk is pretty low": for x' = max(0, u)^3, an entry of the jacobian is lost whenever the random input is not positive. The constraint depends on that
    input (its derivative is -3 at a point with u = 1), and IPOPT is told 0. *)
Theorem C56_sparsity_refuted : model_ok rampm [] /\ exact_derivatives rampm [] /\ position_free rampm /\ config_ok rampm ramp_cfg None trapezoidal /\
  forall a b c d e f L k, b <= 0 -> chistory (fun _ => [-1; 1/3]) rampm ramp_cfg None tt [a; b; c; d; e; f; L] [] = Ok k ->
  let y := [0; 1; 0; 0; 0; 0; 2] in
  exists pr C J jr jc, cproblem_of rampm k = Ok pr /\ prob_jacobianstructure pr = Ok (jr, jc) /\ (forall x, List.length x = 7%nat -> prob_constraints pr x = Ok (C x) /\ prob_jacobian pr x = Ok (J x)) /\
    pderiv (fun x => vget 0 (C x)) y 1 (-3) /\ tri jr jc (J y) 0 1 = 0.
Proof.
  split; [apply ramp_ok|]. split; [apply ramp_derivatives|]. split; [intros p ds di m m'; reflexivity|]. split; [apply ramp_config_ok|].
  intros a b c d e f L k Hb H y. pose proof (proj1 C22_nonvacuous) as HO.
  destruct (the_condensed (fun _ => [-1; 1/3]) unit rampm ramp_cfg None tt [a; b; c; d; e; f; L] [] k HO ltac:(cbn; lia) ltac:(discriminate) ramp_ok ltac:(intro X; congruence) ltac:(discriminate) H (Forall_nil _)) as (at' & o & fm & pl & ops & h & ob & ob2 & c1 & c2 & c3 & cc & o0 & alg0 & js & W).
  destruct W as [_ EH TW F C ST (r0 & B0 & Er0) EOP ST0 WSM WJS WC WA WN WM Wf Wj Wh Wr1 Wr2 Wr3 Wr4 EP PI].
  destruct (C56_derivatives (fun _ => [-1; 1/3]) unit rampm ramp_cfg None tt [a; b; c; d; e; f; L] [] k HO ltac:(cbn; lia) ltac:(discriminate) ramp_ok ltac:(intro X; congruence) ltac:(discriminate) H (Forall_nil _) (Forall_nil _) ramp_derivatives ltac:(right; intros p ds di m m'; reflexivity)) as (pr & EP' & EN & Fo & G & Cc & J & D & jr & jc & EJS & EV & _ & HJ & HM & _).
  exists pr, Cc, J, jr, jc. split; [exact EP'|]. split; [exact EJS|].
  destruct (history_inv _ _ _ _ _ _ _ _ EH (Forall_nil _)) as (o0' & fm' & cyc & a0 & EO & EFM & ECY & _ & _ & _ & [I1 _ I3 _ I5 _ _]).
  assert (a_o (k_a k) = o) as EKO by (rewrite (tw_o _ _ _ _ _ TW); apply (fa_o _ _ _ _ _ _ _ _ _ _ _ _ _ F)).
  assert (o = o0') as ->. { rewrite <- (fa_o _ _ _ _ _ _ _ _ _ _ _ _ _ F), I1. reflexivity. }
  assert (c3 = None) as ->. { pose proof (co_3 _ _ _ _ _ _ _ _ _ _ _ _ _ _ C) as D3. change (cf_cyclic (config_after rampm ramp_cfg)) with false in ECY. cbv beta iota in ECY. subst cyc. rewrite I5 in D3. destruct c3; [contradiction|reflexivity]. }
  assert (s_dec (a_sc at') = ones 7 /\ s_alg (a_sc (k_a k)) = ones 1) as (ES & EA).
  { destruct (tw_alg _ _ _ _ _ TW) as (_ & T14). rewrite T14, (fa_sc _ _ _ _ _ _ _ _ _ _ _ _ _ F), (fa_o _ _ _ _ _ _ _ _ _ _ _ _ _ F). change (scales_asked (cf_scales (config_after rampm ramp_cfg)) []) with (@nil scale_config). change (scales_asked (cf_scales ramp_cfg) []) with (@nil scale_config). unfold set_scales. cbn [apply_scales fst s_dec s_alg].
    clear - EO. vm_compute in EO. injection EO as <-. split; reflexivity. }
  rewrite ES, EA in *. rewrite EP' in EP. assert (forall A (x y : A), Ok x = Ok y -> x = y) as OI by (intros A u v X; now injection X). apply OI in EP. subst pr.
  set (pr := cassembled _ ob ob2 cc None (ones 7) (ones 1)) in *.
  pose proof (sd_make _ _ _ _ _ _ _ ST) as EM. destruct (WSM eq_refl) as (-> & ->). pose proof (fa_mesh _ _ _ _ _ _ _ _ _ _ _ _ _ F) as EM2. rewrite <- I3, EM2 in EFM.
  clear - EKO EO EFM EM WJS Wf EJS EV HJ HM Hb OI WN WM WA Wr1 Wr2.
  assert (num_dec (oc_op o0') = 7%nat) as EN by (vm_compute in EO; injection EO as <-; reflexivity).
  change (make_ocp (fun _ => [-1; 1/3]) "Trapezoidal" None 1 ["x"] ["u"] [] [] [] None None = Ok o0') in EO. change (cf_con ramp_cfg) with (@nil string) in *.
  assert (jr = c_jr cc /\ jc = c_jc cc) as (-> & ->).
  { unfold pr, prob_jacobianstructure, cassembled, cpieces in EJS. cbn [p_cons values map snd hstackl jac_rows_from rescaled c_jr c_jc concat bind] in EJS. rewrite !app_nil_r in EJS. rewrite (map_ext _ (fun i => i)) in EJS by (intro; lia). rewrite map_id in EJS. apply OI in EJS. injection EJS as <- <-. auto. }
  split; [intros x Lx; destruct (EV x ltac:(rewrite EKO, EN; exact Lx)) as (_ & _ & X1 & X2); auto|].
  split.
  - assert (forall x, List.length x = 7%nat -> vget 0 (Cc x) = vget 3 x - vget 0 x - (1 / 2) * (vget 6 x * (ramp (vget 1 x) + ramp (vget 4 x)))) as VC.
    { intros x Lx. destruct (EV x ltac:(rewrite EKO, EN; exact Lx)) as (_ & _ & X1 & _). unfold pr, prob_constraints, cassembled, cpieces in X1. cbn [p_cons values map snd hstackl concat] in X1. rewrite app_nil_r in X1. apply OI in X1. rewrite <- X1.
      rewrite (resc_constraints cc (ones 7) (ones 1) (proj1 WA)); [|rewrite WN, EN; reflexivity|rewrite WM; vm_compute in EO; injection EO as <-; reflexivity|rewrite WN, EN; exact Lx|rewrite WM; vm_compute in EO; injection EO as <-; cbn; lia].
      assert (vmul x (ones 7) = x) as -> by (rewrite <- Lx; apply vmul_ones). change (vget 0 (ones 1)) with 1. unfold Rdiv at 1. rewrite Rinv_1, Rmult_1_r. specialize (Wf x ltac:(rewrite EN; exact Lx)). destruct x as [|x0 [|x1 [|x2 [|x3 [|x4 [|x5 [|x6 [|? ?]]]]]]]]; try discriminate. rewrite (ramp_value x0 x1 x2 x3 x4 x5 x6 o0' fm c1 _ EO EFM EM Wf). unfold vget; cbn [nth]. field. }
    apply pderiv_ext_len with (f := fun x => vget 3 x - vget 0 x - (1 / 2) * (vget 6 x * (ramp (vget 1 x) + ramp (vget 4 x)))); [intros z Lz; now rewrite VC|].
    eapply pderiv_eq; [|apply OcpProofs2.pderiv_sub; [apply OcpProofs2.pderiv_sub; apply pderiv_coord; cbn; lia|apply pderiv_scal, pderiv_mult; [apply pderiv_coord; cbn; lia|apply pderiv_plus; apply (pd_ramp ramp ramp1); [exact ramp_lim|cbn; lia|exact ramp_lim|cbn; lia]]]].
    cbn [Nat.eqb]. unfold y, vget. cbn [nth]. unfold ramp1. destruct (Rle_dec 1 0); [lra|]. lra.
  - destruct (HM y 0%nat 1%nat) as (_ & X); [rewrite EKO, EN; reflexivity|unfold pr, num_con, cassembled, cpieces; cbn [p_cons values map snd list_sum fold_right rescaled c_ncon]; rewrite WM; vm_compute in EO; injection EO as <-; cbn; lia|rewrite EKO, EN; lia|]. apply X. rewrite Wr1, Wr2. now apply (ramp_entry a b c d e f L o0' fm c1 js).
Qed.
Print Assumptions C56_sparsity_refuted.
(** the hypotheses of C56_derivatives and of the theorem above are met *)
Example C56_derivatives_nonvacuous : exists k, chistory (fun _ => [-1; 1/3]) rampm ramp_cfg None tt [1; -1; 1; 1; 1; 1; 1] [] = Ok k /\ oracle_ok (fun _ => [-1; 1/3]) (cf_tns ramp_cfg) /\ model_ok rampm [] /\ exact_derivatives rampm [] /\ position_free rampm.
Proof.
  pose proof (proj1 C22_nonvacuous) as HO. destruct (C56_accepts _ unit rampm ramp_cfg None tt [1; -1; 1; 1; 1; 1; 1] [] trapezoidal HO eq_refl ramp_config_ok ltac:(reflexivity) (Forall_nil _) (Forall_nil _)) as [k EK].
  exists k. split; [exact EK|]. split; [exact HO|]. split; [apply ramp_ok|]. split; [apply ramp_derivatives|]. intros p ds di m m'; reflexivity.
Qed.
