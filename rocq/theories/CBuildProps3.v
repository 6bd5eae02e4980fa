(** C56, continued: which condensed problems can be constructed, which calls are accepted. *)
From Verif Require Import Base RBase TreeModel UtilsModel UtilsProofs UtilsProofs2 IoModel CollocModel CollocProofs CollocProps MeshModel MeshProofs MeshProps OcpModel OcpProofs OcpProofs2 OcpProofs3 OcpSpec OcpProps NlpModel NlpSpec NlpProofs NlpProofs2 NlpProps NlpProps2
  AlgModel AlgSpec AlgProofs AlgProps ConvModel ConvSpec ConvProps CyclicModel CyclicSpec ObjModel ObjSpec ObjProps BoundModel BoundSpec BoundProofs ScaleModel ScaleSpec ScaleProofs ScaleProps SolverProofs BuildModel BuildSpec BuildProofs BuildProofs2 BuildProofs3 BuildProofs4 BuildProofs5 BuildProofs6 BuildProps BuildProps2
  CondModel CondSpec CondProofs CondProofs2 CondProofs3 CondProofs4 CondProps CondProps2 CBuildModel CBuildSpec CBuildProofs CBuildProofs2 CBuildProofs3 CBuildProofs4 CBuildProofs5 CBuildProofs6 CBuildProps CBuildProps2.



(** the problem with unit scales *)
Lemma raw_pieces : forall roots P (M : smodel P) cfg fixed p cs (a : attrs P) o fm pl ops h ob ob2 c1 c2 c3, facts roots P M cfg fixed p cs a o fm pl ops h -> composed P M cfg fixed p cs a o fm ob ob2 c1 c2 c3 ->
  raw_problem M a = Ok (assembled (num_dec (oc_op o)) ob ob2 c1 c2 c3 (ones (num_dec (oc_op o))) (c_con c1) (c_con c2)).
Proof.
  intros roots P M cfg' fixed p cs a o fm pl ops h ob ob2 c1 c2 c3 F C. pose proof (fa_o _ _ _ _ _ _ _ _ _ _ _ _ _ F) as EAO.
  assert (forall q, ob2 = Some q -> obj_wf (num_dec (oc_op o)) q) as Wq. { intros q ->. pose proof (co_pen _ _ _ _ _ _ _ _ _ _ _ _ _ _ C) as D. destruct (cf_pen cfg'); [|contradiction]. exact (proj1 (proj2 D)). }
  assert (forall c, c3 = Some c -> con_arg c /\ c_nin c = num_dec (oc_op o)) as W3. { intros c ->. pose proof (co_3 _ _ _ _ _ _ _ _ _ _ _ _ _ _ C) as D. destruct (a_cyc a); [|contradiction]. exact (conj (proj1 (proj2 D)) (proj1 (proj2 (proj2 D)))). }
  assert (raw_problem M a = raw_assembly (num_dec (oc_op o)) ob ob2 c1 c2 c3) as ->.
    { unfold raw_problem, raw_assembly. rewrite EAO, (co_obj _ _ _ _ _ _ _ _ _ _ _ _ _ _ C), (fa_pen _ _ _ _ _ _ _ _ _ _ _ _ _ F), (co_1 _ _ _ _ _ _ _ _ _ _ _ _ _ _ C), (co_2 _ _ _ _ _ _ _ _ _ _ _ _ _ _ C). cbn [bind].
      pose proof (co_3 _ _ _ _ _ _ _ _ _ _ _ _ _ _ C) as D. pose proof (co_pen _ _ _ _ _ _ _ _ _ _ _ _ _ _ C) as D'. destruct (add_objective _ "time" ob) as [p0|]; [|reflexivity]. cbn [bind].
      assert (match cf_pen cfg' with Some w => bind (penalty_obj o w) (add_objective p0 "inputs_penalty") | None => Ok p0 end = match ob2 with None => Ok p0 | Some q => add_objective p0 "inputs_penalty" q end) as ->. { destruct (cf_pen cfg'), ob2; try contradiction; [|reflexivity]. destruct D' as (-> & _). reflexivity. }
      destruct (match ob2 with None => Ok p0 | Some q => add_objective p0 "inputs_penalty" q end) as [p1|]; [|reflexivity]. cbn [bind].
      destruct (a_cyc a) as [cv|], c3 as [c|]; try contradiction; [|reflexivity]. destruct D as (D & _). rewrite D. reflexivity. }
    apply raw_assembly_ok; try apply C; assumption.
Qed.
Lemma dec_count : forall roots tn tns n P (M : smodel P) con pts fixed o, OcpSpec.built roots tn tns n (m_states M) (m_inputs M) con pts fixed o ->
  num_dec (oc_op o) = ((n * (t_stages (oc_tr o) - 1) + 1) * (2 * List.length (m_states M) + List.length (m_inputs M) + List.length con) + match fixed with None => 1 | Some _ => 0 end)%nat.
Proof.
  intros roots tn tns n P M con pts fixed o B. pose proof (built_ok _ _ _ _ _ _ _ _ _ _ B) as (K & _ & _ & En & _ & _ & _ & Em & EF & _).
  unfold num_dec, num_all_stage_var, num_global_var. rewrite (nvs_eq _ _ _ _ _ _ _ M _ B), (oo_gn o K), EF, (nst_eq _ _ _ _ _ _ _ _ _ _ B). f_equal; [|destruct fixed; reflexivity]. f_equal.
  unfold num_implicit_var, flat_groups. cbn [flat_map]. rewrite !app_length. cbn [names_of]. change (names_of M con "states") with (m_states M). change (names_of M con "inputs") with (m_inputs M). change (names_of M con "states_dot") with (m_states M). change (names_of M con "con_outputs") with con. cbn [List.length]. lia.
Qed.

(** A configuration in order and calls in order (other than new parameters) give a condensed problem, whatever point the sparsity structure is taken at. *)
Theorem C56_accepts : forall roots P (M : smodel P) cfg fixed p x0 cs t,
  oracle_ok roots (cf_tns cfg) -> make_transcription roots (cf_tname cfg) (cf_tns cfg) = Ok t -> config_ok M cfg fixed t ->
  List.length x0 = ((cf_n cfg * (t_stages t - 1) + 1) * (2 * List.length (m_states M) + List.length (m_inputs M) + List.length (cf_con cfg)) + match fixed with None => 1 | Some _ => 0 end)%nat ->
  Forall (call_ok (cf_n cfg * (t_stages t - 1) + 1) (m_states M) (m_inputs M) (cf_con cfg) fixed) cs -> Forall (fun c => match c with SParams _ => False | _ => True end) cs ->
  exists k, chistory roots M cfg fixed p x0 cs = Ok k.
Proof.
  intros roots P M cfg fixed p x0 cs t HO HTr CK Lx0 HC HN. set (cfg' := config_after M cfg).
  assert (config_ok M cfg' fixed t) as CK'.
  { destruct CK as [K1 K2 K3 K4 K5 KP K6 K7 K8 K9]. constructor; auto. intros b Hb. unfold cfg', config_after in Hb. cbn [cf_bounds] in Hb. apply in_app_iff in Hb. destruct Hb as [Hb|Hb]; [now apply K7|]. unfold zero_dots in Hb. apply in_map_iff in Hb. destruct Hb as (q & <- & Hq).
    split; [left; split; [right; reflexivity|exact Hq]|]. split; [intros _; exact I|]. cbn. lra. }
  destruct (C51_accepts roots P M cfg' fixed p [] t HO HTr CK' (Forall_nil _)) as (a1 & H1).
  destruct (C51_accepts roots P M cfg' fixed p cs t HO HTr CK' HC) as (a & HA).
  pose proof (the_facts roots P M cfg' fixed p [] a1 HO (ck_n _ _ _ _ CK') (ck_states _ _ _ _ CK') (ck_model _ _ _ _ CK') H1 (Forall_nil _)) as (o & fm & pl & ops & h & F).
  assert (fixed <> None -> In "time" (m_states M)) as HT by (intro X; destruct fixed as [s|]; [apply (ck_fixed _ _ _ _ CK s eq_refl)|congruence]).
  destruct (the_pieces roots P M cfg' fixed p [] a1 (ck_model _ _ _ _ CK') HT (ck_pen _ _ _ _ CK') o fm pl ops h F) as (ob & ob2 & c1 & c2 & c3 & C).
  pose proof (raw_pieces roots P M cfg' fixed p [] a1 o fm pl ops h ob ob2 c1 c2 c3 F C) as ER.
  assert (Forall plain cs) as HP. { eapply Forall_impl; [|exact HC]. intros [b|l|l|q|s|ps] X; cbn in *; auto; try contradiction. apply X. }
  assert (Forall no_params cs) as NP by (eapply Forall_impl; [|exact HN]; intros [] X; cbn in *; auto).
  unfold history in HA. apply bind_ok in HA. destruct HA as (a3 & HCo & HA). unfold construct in HCo.
  apply bind_ok in HCo. destruct HCo as (o0 & Eo & HCo). apply bind_ok in HCo. destruct HCo as (fm0 & Ef & HCo). apply bind_ok in HCo. destruct HCo as (cyc & Ec & HCo).
  set (a0 := {| a_o := o0; a_con := cf_con cfg'; a_pen := cf_pen cfg'; a_amesh := fm0; a_p := p; a_cyc := cyc; a_bd := init_bounds (oc_op o0); a_sc := init_scales o0 |}) in HCo.
  apply bind_ok in HCo. destruct HCo as (pr & Er & HCo).
  unfold history, construct in H1. rewrite Eo in H1. cbn [bind] in H1. rewrite Ef in H1. cbn [bind] in H1. rewrite Ec in H1. cbn [bind] in H1. fold a0 in H1. rewrite Er in H1. cbn [bind calls] in H1. rewrite HCo in H1. cbn [bind] in H1. injection H1 as <-.
  apply bind_ok in HCo. destruct HCo as (b1 & E1 & HCo). apply bind_ok in HCo. destruct HCo as (b2 & E2 & E3).
  unfold check in E1, E2, E3. destruct (snd (scall_step a0 (SBounds (cf_bounds cfg')))) as [[]|] eqn:S1; [|discriminate]. assert (fst (scall_step a0 (SBounds (cf_bounds cfg'))) = b1) as E1' by congruence. clear E1. rename E1' into E1. destruct (snd (scall_step b1 (SBCs (cf_bcs cfg')))) as [[]|] eqn:S2; [|discriminate]. assert (fst (scall_step b1 (SBCs (cf_bcs cfg'))) = b2) as E2' by congruence. clear E2. rename E2' into E2. destruct (snd (scall_step b2 (SScales (cf_scales cfg')))) as [[]|] eqn:S3; [|discriminate]. assert (fst (scall_step b2 (SScales (cf_scales cfg'))) = a3) as E3' by congruence. clear E3. rename E3' into E3.
  assert (a_o a3 = o0 /\ a_con a3 = cf_con cfg /\ a_pen a3 = cf_pen cfg /\ a_amesh a3 = fm0 /\ a_p a3 = p /\ a_cyc a3 = cyc) as (Q1 & Q2 & Q3 & Q4 & Q5 & Q6) by (rewrite <- E3, <- E2, <- E1; repeat split; reflexivity).
  assert (o = o0) as -> by (rewrite <- Q1; symmetry; apply (fa_o _ _ _ _ _ _ _ _ _ _ _ _ _ F)).
  assert (fm = fm0) as -> by (rewrite <- Q4; symmetry; apply (fa_mesh _ _ _ _ _ _ _ _ _ _ _ _ _ F)).
  assert (raw_problem M a3 = raw_problem M a0) as EX by (apply raw_ext; cbn [a0 a_o a_con a_pen a_amesh a_p a_cyc]; assumption).
  rewrite EX, Er in ER. injection ER as ->.
  pose proof (fa_built _ _ _ _ _ _ _ _ _ _ _ _ _ F) as Bo. change (cf_tname cfg') with (cf_tname cfg) in Bo. change (cf_tns cfg') with (cf_tns cfg) in Bo. change (cf_con cfg') with (cf_con cfg) in Bo. change (cf_n cfg') with (cf_n cfg) in Bo. change (cf_points cfg') with (cf_points cfg) in Bo.
  pose proof (ck_model _ _ _ _ CK) as MO.
  destruct (the_algebra roots (cf_tname cfg) (cf_tns cfg) (cf_n cfg) (cf_points cfg) _ o0 fm0 M (cf_con cfg) p Bo MO (fa_lfm _ _ _ _ _ _ _ _ _ _ _ _ _ F)) as (c1' & ST).
  assert (c1' = c1) as ->.
  { pose proof (co_1 _ _ _ _ _ _ _ _ _ _ _ _ _ _ C) as X. unfold algebra_con in X. rewrite Q1, Q2, Q4, Q5 in X. pose proof (sd_make _ _ _ _ _ _ _ ST) as Y. congruence. }
  destruct (built_ok _ _ _ _ _ _ _ _ _ _ Bo) as (K & Kn & Kd & _ & _ & _ & _ & _ & _ & _ & _ & ETr).
  assert (oc_tr o0 = t) as ET by congruence.
  assert (List.length x0 = num_dec (oc_op o0)) as Lx. { rewrite (dec_count _ _ _ _ P M _ _ _ _ Bo), ET, Lx0. f_equal. unfold fixed_now. destruct fixed; reflexivity. }
  set (nimp := num_implicit_res (names_of M (cf_con cfg))).
  assert (exists js, condensed_jacobianstructure o0 c1 nimp x0 = Ok js) as (js & EJ).
  { unfold condensed_jacobianstructure. rewrite (idx_eq o0 K Kn Kd). cbn [bind]. rewrite (cont_jac_eq o0 K Kn Kd c1 nimp (sd_ea _ _ _ _ _ _ _ ST) x0 Lx). cbn [bind]. eexists. reflexivity. }
  destruct (structure_range o0 K Kn Kd c1 nimp x0 js (sd_ea _ _ _ _ _ _ _ ST) EJ) as (R1 & R2 & R3).
  set (k0 := {| k_a := a0; k_p := p; k_js := js |}).
  destruct (condensed_piece o0 K Kn Kd c1 nimp (dots_of M (cf_con cfg) p) fm0 js (sd_ea _ _ _ _ _ _ _ ST) (sd_fwd _ _ _ _ _ _ _ ST) (sd_wf _ _ _ _ _ _ _ ST) (sd_unit _ _ _ _ _ _ _ ST) R1 R2 R3) as (cc & EC & CA & CN & _).
  assert (condensed_con M k0 c1 = Ok cc) as ECC. { unfold condensed_con, nimp_of, k0, a0. cbn [k_a k_js a_o a_con a_p]. rewrite Ef. exact EC. }
  assert (c1 = rescaled c1 (ones (num_dec (oc_op o0))) (c_con c1)) as U by (rewrite (sd_unit _ _ _ _ _ _ _ ST) at 3; cbn [rescaled c_con]; exact (sd_unit _ _ _ _ _ _ _ ST)).
  pose proof (condense_ok (num_dec (oc_op o0)) ob ob2 cc c3 CA CN P M k0 c1 c2 U ECC) as ECD.
  assert (twin k0 a0 p js None) as T0 by (constructor; cbn; auto).
  destruct (twin_step _ k0 a0 p js None (SBounds (cf_bounds cfg')) T0 I) as (U1 & T1). rewrite S1 in U1. specialize (T1 U1 I). rewrite E1 in T1.
  destruct (twin_step _ _ _ _ _ _ (SBCs (cf_bcs cfg')) T1 I) as (U2 & T2). rewrite S2 in U2. specialize (T2 U2 I). rewrite E2 in T2.
  destruct (twin_step _ _ _ _ _ _ (SScales (cf_scales cfg')) T2 I) as (U3 & T3). rewrite S3 in U3. specialize (T3 U3 I). rewrite E3 in T3.
  cbv beta iota in T3. destruct (twin_calls_back _ cs _ _ _ _ _ _ T3 HP NP HA) as (k & EK). exists k.
  unfold chistory, cconstruct. change (make_ocp roots (cf_tname cfg) (cf_tns cfg) (cf_n cfg) (m_states M) (m_inputs M) (m_outputs M) (cf_con cfg) (m_residuals M) (cf_points cfg) fixed) with (make_ocp roots (cf_tname cfg') (cf_tns cfg') (cf_n cfg') (m_states M) (m_inputs M) (m_outputs M) (cf_con cfg') (m_residuals M) (cf_points cfg') fixed). rewrite Eo. cbn [bind]. rewrite Ef. cbn [bind].
  change (cf_cyclic cfg) with (cf_cyclic cfg'). change (cf_noncyclic cfg) with (cf_noncyclic cfg'). rewrite Ec. cbn [bind]. change (cf_con cfg) with (cf_con cfg'). change (cf_pen cfg) with (cf_pen cfg'). fold a0. rewrite Er. cbn [bind].
  assert (lookup_err "model_algebra" (p_cons (assembled (num_dec (oc_op o0)) ob ob2 c1 c2 c3 (ones (num_dec (oc_op o0))) (c_con c1) (c_con c2))) = Ok c1) as ->.
  { unfold assembled, pieces, lookup_err. cbn [p_cons app dget]. change (String.eqb "model_algebra" "model_algebra") with true. cbv iota. f_equal. symmetry. exact U. }
  cbn [bind]. fold nimp. change (cf_con cfg') with (cf_con cfg). fold nimp. rewrite EJ. cbn [bind]. fold k0. rewrite ECD. cbn [bind]. fold cfg'. rewrite (ccheck_of _ _ U1). cbn [bind]. change (cf_bcs cfg) with (cf_bcs cfg'). change (cf_scales cfg) with (cf_scales cfg'). rewrite (ccheck_of _ _ U2). cbn [bind]. rewrite (ccheck_of _ _ U3). cbn [bind]. exact EK.
Qed.
Print Assumptions C56_accepts.
