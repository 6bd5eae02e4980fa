(** Lemmas for condensed problems, part 2: the condensed constraints as a constraints object. *)
From Verif Require Import Base RBase TreeModel UtilsModel UtilsProofs UtilsProofs2 IoModel CollocModel CollocProofs CollocProps MeshModel MeshProofs MeshProps OcpModel OcpProofs OcpProofs2 OcpProofs3 OcpSpec OcpProps NlpModel NlpProofs NlpProofs2 NlpProps NlpProps2
  AlgModel AlgSpec AlgProofs AlgProps ConvModel ConvSpec ConvProps CyclicModel ObjModel BoundModel ScaleModel BuildModel BuildSpec BuildProofs BuildProofs2 BuildProofs3 BuildProofs4 CondModel CondSpec CondProofs CondProofs2 CondProofs3 CondProofs4 CondProps CondProps2 CBuildModel.

(** ** the algebra *)
Section Alg.
Variables (roots : list R -> list R) (tn : string) (tns : option nat) (n : nat) (pts : option (list R)) (fixed : option R) (o : ocp) (fm : list R).
Context {P : Type}.
Variables (M : smodel P) (con : list string) (p : P).
Hypothesis B : OcpSpec.built roots tn tns n (m_states M) (m_inputs M) con pts fixed o.
Hypothesis MO : model_ok M con.
Hypothesis Lfm : List.length fm = num_stages (oc_op o).
Let nm := names_of M con.
Let nimp := num_implicit_res nm.

Record stored (alg : bcon) : Prop := {
  sd_make : make_conv (unit_problem M con) (oc_op o) fm (fun x => or_zero (get_mesh_scale o x)) p = Ok alg;
  sd_wf : con_wf alg; sd_unit : alg = rescaled alg (ones (num_dec (oc_op o))) (ones (num_stages (oc_op o) * nimp));
  sd_nin : c_nin alg = num_dec (oc_op o); sd_ncon : c_ncon alg = (num_stages (oc_op o) * nimp)%nat;
  sd_ea : explicit_algebra o alg nimp; sd_fwd : forward_agrees o alg nimp (dots_of M con p) fm;
  sd_exact : unit_jacobian (unit_problem M con) -> unit_hessian (fun _ _ => True) (unit_problem M con) -> fixed <> None \/ (forall x m m' p, u_f (unit_problem M con) x m p = u_f (unit_problem M con) x m' p) -> exact_algebra o alg;
  sd_free : (forall x m m' p, u_f (unit_problem M con) x m p = u_f (unit_problem M con) x m' p) -> fixed = None -> CondSpec.mesh_free o alg }.
Lemma the_algebra : exists alg, stored alg.
Proof using B MO Lfm.
  destruct (C29_applies P roots tn tns n (m_states M) (m_inputs M) con pts fixed o nm (m_forward M) (unit_problem M con) fm p B (mo_names _ _ MO) eq_refl eq_refl eq_refl (fun m => mo_forward _ _ MO p m) (shapes M con MO) eq_refl eq_refl) as (alg & E & EA & FA & XA & MF).
  { intros x m _. reflexivity. }
  { exact Lfm. }
  destruct (conv_wf _ (unit_problem M con) (oc_op o) fm (scale_fn_of o) p) as (js & hs & c & E1 & E2 & W & _ & _ & _ & _ & N1 & N2 & _); [symmetry; apply (nvs_eq _ _ _ _ _ _ _ M con B)|apply (nvs_pos _ _ _ _ _ _ _ M con B)|exact Lfm|apply shapes, MO|].
  rewrite E in E2. injection E2 as <-. exists alg. constructor; auto. assert (HC := E). unfold make_conv in HC. rewrite E1 in HC. cbn [bind] in HC. destruct (make_con_ok _ _ _ _ _ _ _ _ HC W) as (ER & _). exact ER.
Qed.
End Alg.

(** the stored algebra is the one of the problem before condensing *)
Lemma add_con_other : forall p name c p' k, add_constraints p name c = Ok p' -> k <> name -> dget k (p_cons p') = dget k (p_cons p).
Proof.
  intros p name c p' k H Hk. unfold add_constraints in H. destruct (dmem name (p_cons p)); [discriminate|]. destruct (negb _); [discriminate|]. apply bind_ok in H. destruct H as (c' & _ & H). injection H as <-. cbn [NlpModel.set_cons p_cons]. apply dget_dset_other. congruence.
Qed.
Lemma raw_algebra : forall P (M : smodel P) a0 pr alg, raw_problem M a0 = Ok pr -> lookup_err "model_algebra" (p_cons pr) = Ok alg ->
  exists c, algebra_con M a0 = Ok c /\ set_input_scales c (ones (num_dec (oc_op (a_o a0)))) = Ok alg.
Proof.
  intros P M a0 pr alg H HL. unfold raw_problem in H. apply bind_ok in H. destruct H as (p0 & E0 & H). apply bind_ok in E0. destruct E0 as (ob & _ & E0). apply bind_ok in H. destruct H as (p1 & E1 & H). apply bind_ok in H. destruct H as (p2 & E2 & H). apply bind_ok in E2. destruct E2 as (c & Ec & E2). apply bind_ok in H. destruct H as (p3 & E3 & H). apply bind_ok in E3. destruct E3 as (c2 & _ & E3).
  exists c. split; [exact Ec|].
  assert (p_scales p0 = ones (num_dec (oc_op (a_o a0)))) as S0. { unfold add_objective in E0. cbn [make_prob p_objs dmem dget] in E0. apply bind_ok in E0. destruct E0 as (o' & _ & E0). injection E0 as <-. reflexivity. }
  assert (p_scales p1 = p_scales p0) as S1.
  { destruct (a_pen a0) as [w|]; [|now injection E1 as <-]. apply bind_ok in E1. destruct E1 as (q & _ & E1). unfold add_objective in E1. destruct (dmem _ _); [discriminate|]. apply bind_ok in E1. destruct E1 as (o' & _ & E1). injection E1 as <-. reflexivity. }
  assert (dget "model_algebra" (p_cons pr) = dget "model_algebra" (p_cons p2)) as D.
  { transitivity (dget "model_algebra" (p_cons p3)); [|eapply add_con_other; [exact E3|discriminate]]. destruct (a_cyc a0); [|now injection H as <-]. apply bind_ok in H. destruct H as (c3 & _ & H). eapply add_con_other; [exact H|discriminate]. }
  unfold add_constraints in E2. destruct (dmem "model_algebra" (p_cons p1)); [discriminate|]. destruct (negb _); [discriminate|]. apply bind_ok in E2. destruct E2 as (c' & Ec' & E2). injection E2 as <-. rewrite <- S0, <- S1, Ec'.
  unfold lookup_err in HL. rewrite D in HL. cbn [NlpModel.set_cons p_cons] in HL. rewrite dget_dset_same in HL. exact HL.
Qed.

(** ** the structure *)
Lemma structure_range : forall o, ocp_ok o -> (1 <= num_intervals o)%nat -> (1 <= num_states o)%nat -> forall alg nimp x0 js, explicit_algebra o alg nimp -> condensed_jacobianstructure o alg nimp x0 = Ok js ->
  List.length (fst js) = List.length (snd js) /\ Forall (fun r => (r < num_condensed o nimp)%nat) (fst js) /\ Forall (fun q => (q < num_dec (oc_op o))%nat) (snd js).
Proof.
  intros o K Hn Hd alg nimp x0 js EA H. unfold condensed_jacobianstructure in H. apply bind_ok in H. destruct H as (idx & _ & H). apply bind_ok in H. destruct H as (Jc & _ & H).
  assert (num_continuity_cons o + List.length (kept_rows o alg nimp) = num_condensed o nimp)%nat as EN by (rewrite (ncc_eq o K Hn Hd alg nimp EA), (kept_len o K Hn Hd alg nimp EA); unfold num_condensed; nia).
  rewrite EN in H. remember (chainrule o alg nimp idx Jc (alg_jac alg x0)) as T eqn:ET. clear ET. injection H as <-.
  assert (List.length (fst (nonzeros (num_condensed o nimp) (num_dec (oc_op o)) T)) = List.length (snd (nonzeros (num_condensed o nimp) (num_dec (oc_op o)) T))) as LL by (unfold nonzeros; cbn [fst snd]; now rewrite !map_length).
  split; [exact LL|].
  split; apply Forall_forall; intros r Hr; apply In_nth with (d := 0%nat) in Hr; destruct Hr as (i & Hi & <-).
  - apply (proj1 (A := (_ < _)%nat) (B := (nth i (snd (nonzeros (num_condensed o nimp) (num_dec (oc_op o)) T)) 0 < num_dec (oc_op o))%nat)). apply (nonzeros_range _ _ T). rewrite <- combine_nth by exact LL. apply nth_In. rewrite combine_length. lia.
  - apply (proj2 (A := (nth i (fst (nonzeros (num_condensed o nimp) (num_dec (oc_op o)) T)) 0 < num_condensed o nimp)%nat)). apply (nonzeros_range _ _ T). rewrite <- combine_nth by exact LL. apply nth_In. rewrite combine_length. lia.
Qed.

(** ** the constraints object *)
Section Piece.
Variable o : ocp.
Hypothesis K : ocp_ok o.
Hypothesis Hn : (1 <= num_intervals o)%nat.
Hypothesis Hd : (1 <= num_states o)%nat.
Variables (alg : bcon) (nimp : nat) (fwd : list (list R) -> list (list R) -> list R -> list (list R)) (fmesh : list R) (js : list nat * list nat).
Hypothesis EA : explicit_algebra o alg nimp.
Hypothesis FA : forward_agrees o alg nimp fwd fmesh.
Hypothesis W : con_wf alg.
Hypothesis U : alg = rescaled alg (ones (num_dec (oc_op o))) (ones (num_stages (oc_op o) * nimp)).
Hypothesis J1 : List.length (fst js) = List.length (snd js).
Hypothesis J2 : Forall (fun r => (r < num_condensed o nimp)%nat) (fst js).
Hypothesis J3 : Forall (fun q => (q < num_dec (oc_op o))%nat) (snd js).

Lemma stored_hess_len : forall x lam, List.length x = num_dec (oc_op o) -> List.length lam = c_ncon alg -> List.length (con_hessian alg x lam) = List.length (c_hr alg).
Proof using EA W U.
  clear J1 J2 J3 FA. intros x lam Lx Ll. assert (c_in alg = ones (num_dec (oc_op o)) /\ c_con alg = ones (num_stages (oc_op o) * nimp)) as [I1 I2] by (rewrite U; split; reflexivity).
  assert (List.length (c_hs alg) = List.length (c_hr alg)) as LH by (rewrite U; cbn [c_hs c_hr rescaled]; apply map2_length, (wf_h _ W)).
  unfold con_hessian. rewrite I1, I2. unfold vdiv at 1.
  assert (List.length (c_h alg (vmul x (ones (num_dec (oc_op o)))) (vdiv lam (ones (num_stages (oc_op o) * nimp)))) = List.length (c_hr alg)) as L1.
  { apply (wf_hv _ W).
    - rewrite (ea_nin _ _ _ EA). unfold vmul. rewrite map2_length; [exact Lx|]. unfold ones. rewrite repeat_length. exact Lx.
    - rewrite (ea_ncon _ _ _ EA) in *. unfold vdiv. rewrite map2_length; [exact Ll|]. unfold ones. rewrite repeat_length. exact Ll. }
  rewrite map2_length by congruence. exact L1.
Qed.
Lemma cond_len : forall x, List.length (cond_list o alg nimp x) = num_condensed o nimp.
Proof using K Hn Hd EA.
  clear W U J1 J2 J3 FA. intro x. unfold cond_list, num_condensed. rewrite app_length, comp3_len, (restl_kept o K Hn Hd alg nimp EA), map_length, (kept_len o K Hn Hd alg nimp EA). nia.
Qed.
Lemma hess_shape : forall x lam, List.length x = num_dec (oc_op o) -> List.length lam = num_condensed o nimp ->
  exists v, condensed_hessian o alg nimp x lam = Ok v /\ List.length v = List.length (fst (condensed_hessianstructure o alg)).
Proof using K Hn Hd EA W U.
  clear J1 J2 J3 FA. intros x lam Lx Ll. destruct (mults_ok o K Hn Hd alg nimp EA x lam Lx Ll) as (leq & E & Lq & _).
  assert (List.length (con_hessian alg x leq) = List.length (c_hr alg)) as LH by (apply stored_hess_len; [exact Lx|rewrite (ea_ncon _ _ _ EA); exact Lq]).
  unfold condensed_hessian, condensed_hessianstructure. rewrite E. cbn [bind]. destruct (oc_fixed o) as [s|] eqn:EF.
  - destruct (no_scale o K Hn Hd s EF) as [HS _]. rewrite HS. exists (con_hessian alg x leq). auto.
  - destruct (index_scale o K Hn Hd EF) as (_ & HS & ND). rewrite HS. rewrite (idx_eq o K Hn Hd). cbn [bind].
    rewrite (hess_struct o K Hn Hd EF). cbn [bind]. rewrite (hess_vals o K Hn Hd).
    + cbn [bind]. eexists. split; [reflexivity|]. cbn [fst]. rewrite !app_length, map_length, !seq_length. now rewrite LH.
    + rewrite firstn_length_le; [lia|]. rewrite Ll. unfold num_condensed. lia.
Qed.
Lemma condensed_piece : exists c, make_con (num_dec (oc_op o)) (num_condensed o nimp) (fun x => or_nil (condensed_constraints o alg x)) (fun x => or_nil (condensed_jacobian o alg nimp fwd fmesh js x))
    (fun x lam => or_nil (condensed_hessian o alg nimp x lam)) (Some js) (Some (condensed_hessianstructure o alg)) = Ok c /\
  con_arg c /\ c_nin c = num_dec (oc_op o) /\ c_ncon c = num_condensed o nimp /\ c_con c = ones (num_condensed o nimp) /\
  (forall x, List.length x = num_dec (oc_op o) -> condensed_constraints o alg x = Ok (c_f c x)) /\
  (forall x, List.length x = num_dec (oc_op o) -> condensed_jacobian o alg nimp fwd fmesh js x = Ok (c_j c x)) /\
  (forall x lam, List.length x = num_dec (oc_op o) -> List.length lam = num_condensed o nimp -> condensed_hessian o alg nimp x lam = Ok (c_h c x lam)) /\
  c_jr c = fst js /\ c_jc c = snd js /\ c_hr c = fst (condensed_hessianstructure o alg) /\ c_hc c = snd (condensed_hessianstructure o alg).
Proof using K Hn Hd EA FA W U J1 J2 J3.
  assert (forall x, List.length x = num_dec (oc_op o) -> condensed_jacobian o alg nimp fwd fmesh js x = Ok (map2 (cjac o alg nimp x) (fst js) (snd js))) as JJ.
  { intros x L. unfold condensed_jacobian. rewrite (big_jac_eq o K Hn Hd alg nimp EA fwd fmesh x (fun _ => FA) L). reflexivity. }
  destruct (make_con_total (num_dec (oc_op o)) (num_condensed o nimp) (fun x => or_nil (condensed_constraints o alg x)) (fun x => or_nil (condensed_jacobian o alg nimp fwd fmesh js x))
    (fun x lam => or_nil (condensed_hessian o alg nimp x lam)) js (condensed_hessianstructure o alg)) as (c & E & Wc & Ec & N1 & N2 & F1 & F2 & F3 & R1 & R2 & R3 & R4).
  { constructor; cbn [c_nin c_ncon c_f c_j c_h c_jr c_jc c_hr c_hc].
    - exact J1.
    - exact J2.
    - exact J3.
    - unfold condensed_hessianstructure. destruct (has_scale o); cbn [fst snd]; [rewrite !app_length, seq_length, repeat_length; now rewrite (wf_h _ W)|apply (wf_h _ W)].
    - pose proof (wf_hr _ W) as X. rewrite (ea_nin _ _ _ EA) in X. unfold condensed_hessianstructure. destruct (has_scale o); cbn [fst snd]; [|exact X]. apply Forall_app. split; [exact X|]. apply Forall_forall. intros r Hr. apply in_seq in Hr. lia.
    - pose proof (wf_hc _ W) as X. rewrite (ea_nin _ _ _ EA) in X. unfold condensed_hessianstructure. destruct (has_scale o); cbn [fst snd]; [|exact X]. apply Forall_app. split; [exact X|]. apply Forall_forall. intros r Hr. apply repeat_spec in Hr. subst r.
      assert (0 < num_dec (oc_op o))%nat; [|lia]. pose proof (dt_lt o K Hn Hd 0 0 (num_stages_pos _) ltac:(lia)). lia.
    - intros x L. rewrite (condensed_eq o K Hn Hd alg nimp EA x L). cbn [or_nil ok_or_nil]. apply cond_len.
    - intros x L. rewrite (JJ x L). cbn [or_nil ok_or_nil]. now rewrite map2_length.
    - intros x lam L Ll. destruct (hess_shape x lam L Ll) as (v & -> & Lv). exact Lv. }
  exists c. split; [exact E|]. split; [split; [exact Wc|rewrite Ec, N2; apply repeat_length]|]. split; [exact N1|]. split; [exact N2|]. split; [exact Ec|]. split; [|split; [|split]].
  - intros x L. rewrite F1. rewrite (condensed_eq o K Hn Hd alg nimp EA x L). reflexivity.
  - intros x L. rewrite F2. rewrite (JJ x L). reflexivity.
  - intros x lam L Ll. rewrite F3. destruct (hess_shape x lam L Ll) as (v & -> & Lv). reflexivity.
  - repeat split; assumption.
Qed.
End Piece.
