(** Lemmas for whole problems, part 6: the composite problem of a history and what its solutions mean. *)
From Verif Require Import Base RBase TreeModel UtilsModel UtilsProofs UtilsProofs2 UtilsProps IoModel CollocModel CollocProofs CollocProps MeshModel MeshProofs MeshProps OcpModel OcpProofs OcpSpec OcpProps NlpModel NlpSpec NlpProofs NlpProofs2 NlpProps NlpProps2
  AlgModel AlgSpec AlgProofs AlgProps ConvModel ConvSpec ConvProps CyclicModel CyclicSpec CyclicProps ObjModel ObjProps BoundModel BoundSpec BoundProofs BoundProps ScaleModel ScaleSpec ScaleProofs ScaleProps SolverProofs SolverProps BuildModel BuildSpec BuildProofs BuildProofs2 BuildProofs3 BuildProofs4 BuildProofs5.

Lemma srun_fixed : forall o c b h, srun (with_fixed o c) b h = srun o b h.
Proof.
  intros o c b h. unfold srun. change (init_scales (with_fixed o c)) with (init_scales o). generalize (init_scales o) as s. induction h as [|l h IH]; intro s; [reflexivity|]. cbn [fold_left]. rewrite set_scales_fixed. apply IH.
Qed.
Lemma raw_cyclic : forall P (M : smodel P) a0 cv pr, a_cyc a0 = Some cv -> raw_problem M a0 = Ok pr -> cv <> [].
Proof.
  intros P M a0 cv pr Ec H. unfold raw_problem in H. apply bind_ok in H. destruct H as (? & _ & H). apply bind_ok in H. destruct H as (? & _ & H). apply bind_ok in H. destruct H as (? & _ & H). apply bind_ok in H. destruct H as (? & _ & H). rewrite Ec in H.
  apply bind_ok in H. destruct H as (c & H & _). unfold cyclic_con in H. apply bind_ok in H. destruct H as (js & H & _). intros ->. discriminate.
Qed.
Lemma make_ocp_nres : forall roots tn tns n st inp out con res pts fixed o, make_ocp roots tn tns n st inp out con res pts fixed = Ok o -> oc_nres o = List.length res.
Proof.
  intros until o. intro H. unfold make_ocp in H. destruct (match fixed with Some s => negb (rltb 0 s) | None => false end); [discriminate|].
  apply bind_ok in H. destruct H as (t & _ & H). apply bind_ok in H. destruct H as (op & _ & H). apply bind_ok in H. destruct H as (m & _ & H). now injection H as <-.
Qed.

Section Whole.
Variables (roots : list R -> list R) (P : Type) (M : smodel P) (cfg : sim_config) (fixed : option R) (p : P) (cs : list (scall P)) (a : attrs P).
Hypothesis HO : oracle_ok roots (cf_tns cfg).
Hypothesis Hn : (1 <= cf_n cfg)%nat.
Hypothesis Hst : m_states M <> [].
Hypothesis MO : model_ok M (cf_con cfg).
Hypothesis HH : history roots M cfg fixed p cs = Ok a.
Hypothesis HP : Forall plain cs.
Definition fixed_now : option R := match fixed with Some s => Some (mesh_scale_asked s cs) | None => None end.
Definition cyc_now : option (list (string * string)) := if cf_cyclic cfg then Some (cyclic_pairs (m_states M) (m_inputs M) (cf_noncyclic cfg)) else None.

(** the attributes of the problem *)
Record facts (o : ocp) (fm pl : list R) (ops : list bop) (h : list (list scale_config)) : Prop := {
  fa_o : a_o a = o;
  fa_built : OcpSpec.built roots (cf_tname cfg) (cf_tns cfg) (cf_n cfg) (m_states M) (m_inputs M) (cf_con cfg) (cf_points cfg) fixed_now o;
  fa_con : a_con a = cf_con cfg; fa_pen : a_pen a = cf_pen cfg; fa_mesh : a_amesh a = fm; fa_p : a_p a = params_asked p cs;
  fa_nres : oc_nres o = List.length (m_residuals M);
  fa_tr : make_transcription roots (cf_tname cfg) (cf_tns cfg) = Ok (oc_tr o);
  fa_cyc : match a_cyc a with
    | None => cyc_now = None
    | Some cv => build_cyclic_vars o (cf_noncyclic cfg) = Ok cv /\ cyclic_pairs (m_states M) (m_inputs M) (cf_noncyclic cfg) <> [] /\ cyc_now = Some (cyclic_pairs (m_states M) (m_inputs M) (cf_noncyclic cfg))
    end;
  fa_pts : points_used (cf_n cfg) (cf_points cfg) pl;
  fa_lfm : List.length fm = num_stages (oc_op o);
  fa_ns : num_stages (oc_op o) = (cf_n cfg * (t_stages (oc_tr o) - 1) + 1)%nat;
  fa_hl : forall i, (i < cf_n cfg)%nat -> norm_len o i = interval_length pl i;
  fa_hm : forall i j, (i < cf_n cfg)%nat -> (j < t_stages (oc_tr o))%nat -> nth (stage_of (oc_tr o) i j) fm 0 = nth i pl 0 + unit_point (oc_tr o) j * interval_length pl i;
  fa_bd : all_succeed (oc_op o) (init_bounds (oc_op o)) ops; fa_nd : no_direct ops; fa_st : a_bd a = brun (oc_op o) ops;
  fa_bounds : all_bounds ops = bounds_asked (cf_bounds cfg) cs; fa_bcs : all_bcs ops = bcs_asked (cf_bcs cfg) cs;
  fa_sok : snd (set_scales o false (srun o false h) (scales_asked (cf_scales cfg) cs)) = Ok tt;
  fa_sc : a_sc a = fst (set_scales o false (srun o false h) (scales_asked (cf_scales cfg) cs)) }.

Lemma the_facts : exists o fm pl ops h, facts o fm pl ops h.
Proof using HO Hn Hst MO HH HP.
  destruct (history_inv roots P M cfg fixed p cs a HH HP) as (o0 & fm & cyc & a0 & EO & EF & EC & EA & EAC & (pr & ER) & [I1 I2 I3 I4 I5 (ops & J1 & J2 & J3 & J4 & J5) (h & K1 & K2)]).
  set (o := a_o a) in *.
  assert (oc_op o = oc_op o0 /\ oc_mesh o = oc_mesh o0 /\ oc_tr o = oc_tr o0 /\ oc_nres o = oc_nres o0) as (Q1 & Q2 & Q3 & Q4) by (rewrite I1; apply op_at).
  assert (make_ocp roots (cf_tname cfg) (cf_tns cfg) (cf_n cfg) (m_states M) (m_inputs M) (m_outputs M) (cf_con cfg) (m_residuals M) (cf_points cfg) fixed_now = Ok o) as EO'.
  { rewrite I1. unfold o_at, fixed_now. clear -EO HP. destruct fixed as [s|]; [|exact EO]. eapply make_ocp_refixed; [exact EO|]. apply latest_pos; [|exact HP]. unfold make_ocp in EO. unfold rltb in EO. destruct (Rlt_dec 0 s); [assumption|discriminate]. }
  assert (OcpSpec.built roots (cf_tname cfg) (cf_tns cfg) (cf_n cfg) (m_states M) (m_inputs M) (cf_con cfg) (cf_points cfg) fixed_now o) as B by (constructor; eauto).
  assert (flat_mesh (oc_mesh o) = Ok fm) as EF' by (rewrite Q2; exact EF).
  destruct (mesh_facts _ _ _ _ _ _ _ _ _ _ _ B EF') as (pl & M1 & M2 & M3 & M4 & M5).
  exists o, fm, pl, ops, h. constructor; auto.
  - exact (history_pen _ _ _ _ _ _ _ _ HH).
  - rewrite Q4. eapply make_ocp_nres; exact EO.
  - pose proof (built_ok _ _ _ _ _ _ _ _ _ _ B) as (_ & _ & _ & _ & _ & _ & _ & _ & _ & _ & _ & X). exact X.
  - rewrite I5. unfold cyc_now. destruct (cf_cyclic cfg); [|now subst cyc]. destruct EC as (cv & EV & ->). assert (build_cyclic_vars o (cf_noncyclic cfg) = Ok cv) as EV' by (unfold build_cyclic_vars in *; rewrite Q1; exact EV).
    split; [exact EV'|]. split; [|reflexivity]. pose proof (proj1 (proj1 (C28_variables _ _ _ _ _ _ _ _ _ _ (cf_noncyclic cfg) B) cv) EV') as (_ & _ & X). apply (raw_cyclic P M a0 cv pr EAC) in ER. intro Y. rewrite Y in X. now subst cv.
  - now rewrite Q1.
  - now rewrite Q1.
  - rewrite I1. unfold o_at. destruct fixed; [rewrite set_scales_fixed, srun_fixed|]; exact K1.
  - rewrite K2. rewrite I1. unfold o_at. destruct fixed; [rewrite set_scales_fixed, srun_fixed|]; reflexivity.
Qed.

(** the composite problem *)
Record composed (o : ocp) (fm : list R) (ob : bobj) (ob2 : option bobj) (c1 c2 : bcon) (c3 : option bcon) : Prop := {
  co_obj : time_obj o = Ok ob; co_owf : obj_wf (num_dec (oc_op o)) ob;
  co_time : forall x, List.length x = num_dec (oc_op o) -> time_spent o (oc_tr o) (cf_n cfg) fixed_now x (o_f ob x);
  co_pen : match cf_pen cfg, ob2 with
    | None, None => True
    | Some w, Some q => penalty_obj o w = Ok q /\ obj_wf (num_dec (oc_op o)) q /\ forall x, List.length x = num_dec (oc_op o) -> inputs_penalty o w x = Ok (o_f q x)
    | _, _ => False
    end;
  co_1 : algebra_con M a = Ok c1; co_1a : con_arg c1; co_1n : c_nin c1 = num_dec (oc_op o); co_1m : c_ncon c1 = (num_stages (oc_op o) * num_implicit_res (names_of M (cf_con cfg)))%nat;
  co_1f : c_f c1 = (fun x => ok_or_nil (conv_constraints (unit_problem M (cf_con cfg)) (oc_op o) fm (fun x => or_zero (get_mesh_scale o x)) (params_asked p cs) x));
  co_2 : continuity_con o = Ok c2; co_2a : con_arg c2; co_2n : c_nin c2 = num_dec (oc_op o); co_2m : c_ncon c2 = num_continuity_cons o;
  co_2f : forall x, List.length x = num_dec (oc_op o) -> continuity_constraints o x = Ok (c_f c2 x);
  co_3 : match a_cyc a, c3 with
    | None, None => True
    | Some cv, Some c => cyclic_con o cv = Ok c /\ con_arg c /\ c_nin c = num_dec (oc_op o) /\ (exists k, c_con c = ones k) /\ forall x, List.length x = num_dec (oc_op o) -> cyclic_constraint o cv x = Ok (c_f c x)
    | _, _ => False
    end }.
Hypothesis HT : fixed <> None -> In "time" (m_states M).
Hypothesis HW : forall w, cf_pen cfg = Some w -> NoDup (keys w) /\ incl (keys w) (m_inputs M).
Lemma the_pieces : forall o fm pl ops h, facts o fm pl ops h -> exists ob ob2 c1 c2 c3, composed o fm ob ob2 c1 c2 c3.
Proof using MO HT HW.
  intros o fm pl ops h [F1 B F3 FP F4 F5 F6 F7 F8 F9 F10 F11 _ _ _ _ _ _ _ _ _].
  destruct (time_piece _ _ _ _ _ _ _ _ _ _ B) as (ob & g & T1 & T2 & _ & _ & _ & T3); [intros X; apply HT; intro Y; apply X; unfold fixed_now; now rewrite Y|].
  destruct (algebra_piece _ _ _ _ _ _ _ _ M _ B MO F10 (fun x => or_zero (get_mesh_scale o x)) (params_asked p cs)) as (c1 & A1 & A2 & A3 & A4 & _ & A5).
  destruct (continuity_piece _ _ _ _ _ _ _ _ _ _ B) as (c2 & C1 & C2 & C3 & C4 & _ & C5 & _).
  assert (exists c3, match a_cyc a, c3 with None, None => True | Some cv, Some c => cyclic_con o cv = Ok c /\ con_arg c /\ c_nin c = num_dec (oc_op o) /\ (exists k, c_con c = ones k) /\ forall x, List.length x = num_dec (oc_op o) -> cyclic_constraint o cv x = Ok (c_f c x) | _, _ => False end) as (c3 & D).
  { destruct (a_cyc a) as [cv|]; [|exists None; exact I]. destruct F8 as (G1 & G2 & _). destruct (cyclic_piece _ _ _ _ _ _ _ _ _ _ B (cf_noncyclic cfg) cv (mo_dots _ _ MO) G1 G2) as (c & X1 & X2 & X3 & X4 & X5 & X6 & _). exists (Some c). eauto 10. }
  assert (exists ob2, match cf_pen cfg, ob2 with None, None => True | Some w, Some q => penalty_obj o w = Ok q /\ obj_wf (num_dec (oc_op o)) q /\ forall x, List.length x = num_dec (oc_op o) -> inputs_penalty o w x = Ok (o_f q x) | _, _ => False end) as (ob2 & D2).
  { destruct (cf_pen cfg) as [w|]; [|exists None; exact I]. destruct (HW w eq_refl) as [W1 W2]. destruct (penalty_piece _ _ _ _ _ _ _ _ _ _ B w W1 W2) as (q & _ & Q1 & Q2 & _ & _ & _ & Q3). exists (Some q). auto. }
  exists ob, ob2, c1, c2, c3. constructor; auto. unfold algebra_con. rewrite F1, F3, F4, F5. exact A1.
Qed.

Lemma the_problem : forall o fm pl ops h ob ob2 c1 c2 c3, facts o fm pl ops h -> composed o fm ob ob2 c1 c2 c3 -> let sc := a_sc a in
  problem_of M a = Ok (assembled (num_dec (oc_op o)) ob ob2 c1 c2 c3 (s_dec sc) (s_alg sc) (s_cont sc)) /\
  prob_inv (assembled (num_dec (oc_op o)) ob ob2 c1 c2 c3 (s_dec sc) (s_alg sc) (s_cont sc)).
Proof using.
  clear HW HT. intros o fm pl ops h ob ob2 c1 c2 c3 F C sc. pose proof (dec_len _ _ _ _ _ _ _ M _ (fa_built _ _ _ _ _ F) h _ (fa_sok _ _ _ _ _ F)) as (L1 & L2). pose proof (cont_len _ _ _ _ _ _ _ M _ (fa_built _ _ _ _ _ F) h _ (fa_sok _ _ _ _ _ F)) as L3.
  pose proof (alg_len _ _ _ _ _ _ _ M _ (fa_built _ _ _ _ _ F) h _ (fa_sok _ _ _ _ _ F) (fa_nres _ _ _ _ _ F)) as L4. rewrite <- (fa_sc _ _ _ _ _ F) in L1, L2, L3, L4. fold sc in L1, L2, L3, L4.
  assert (forall q, ob2 = Some q -> obj_wf (num_dec (oc_op o)) q) as Wq. { intros q ->. pose proof (co_pen _ _ _ _ _ _ _ C) as D. destruct (cf_pen cfg); [|contradiction]. exact (proj1 (proj2 D)). }
  assert (forall c, c3 = Some c -> con_arg c /\ c_nin c = num_dec (oc_op o)) as W3. { intros c ->. pose proof (co_3 _ _ _ _ _ _ _ C) as D. destruct (a_cyc a); [|contradiction]. exact (conj (proj1 (proj2 D)) (proj1 (proj2 (proj2 D)))). }
  split.
  - unfold problem_of. assert (raw_problem M a = raw_assembly (num_dec (oc_op o)) ob ob2 c1 c2 c3) as ->.
    { unfold raw_problem, raw_assembly. rewrite (fa_o _ _ _ _ _ F), (co_obj _ _ _ _ _ _ _ C), (fa_pen _ _ _ _ _ F), (co_1 _ _ _ _ _ _ _ C), (co_2 _ _ _ _ _ _ _ C). cbn [bind].
      pose proof (co_3 _ _ _ _ _ _ _ C) as D. pose proof (co_pen _ _ _ _ _ _ _ C) as D'. destruct (add_objective _ "time" ob) as [p0|]; [|reflexivity]. cbn [bind].
      assert (match cf_pen cfg with Some w => bind (penalty_obj o w) (add_objective p0 "inputs_penalty") | None => Ok p0 end = match ob2 with None => Ok p0 | Some q => add_objective p0 "inputs_penalty" q end) as ->. { destruct (cf_pen cfg), ob2; try contradiction; [|reflexivity]. destruct D' as (-> & _). reflexivity. }
      destruct (match ob2 with None => Ok p0 | Some q => add_objective p0 "inputs_penalty" q end) as [p1|]; [|reflexivity]. cbn [bind].
      destruct (a_cyc a) as [cv|], c3 as [c|]; try contradiction; [|reflexivity]. destruct D as (D & _). rewrite D. reflexivity. }
    rewrite (raw_assembly_ok _ ob ob2 c1 c2 c3 (co_owf _ _ _ _ _ _ _ C) Wq (co_1a _ _ _ _ _ _ _ C) (co_2a _ _ _ _ _ _ _ C) W3 (co_1n _ _ _ _ _ _ _ C) (co_2n _ _ _ _ _ _ _ C)). cbn [bind]. fold sc. rewrite L2.
    apply scaled_ok; try apply C; try assumption; try (rewrite (co_1m _ _ _ _ _ _ _ C)); try (rewrite (co_2m _ _ _ _ _ _ _ C)); assumption.
  - apply assembled_inv; try apply C; try assumption; try (rewrite (co_1m _ _ _ _ _ _ _ C)); try (rewrite (co_2m _ _ _ _ _ _ _ C)); assumption.
Qed.

(** feasible points of the composite problem are the trajectories *)
Lemma feasible_traj : forall o fm pl ops h ob ob2 c1 c2 c3 s k1 k2 x, facts o fm pl ops h -> composed o fm ob ob2 c1 c2 c3 ->
  (user_feasible (assembled (num_dec (oc_op o)) ob ob2 c1 c2 c3 s k1 k2) (lbs (a_bd a)) (ubs (a_bd a)) x <->
   trajectory o (m_states M) (m_inputs M) (cf_con cfg) (m_residuals M) (m_forward M (params_asked p cs)) (oc_tr o) (cf_n cfg) pl fixed_now cyc_now (bounds_asked (cf_bounds cfg) cs) (bcs_asked (cf_bcs cfg) cs) x).
Proof using MO.
  clear HW HT. intros o fm pl ops h ob ob2 c1 c2 c3 s k1 k2 x F C. pose proof (fa_built _ _ _ _ _ F) as B.
  assert (user_constraints (assembled (num_dec (oc_op o)) ob ob2 c1 c2 c3 s k1 k2) x = c_f c1 x ++ c_f c2 x ++ match c3 with Some c => c_f c x | None => [] end) as UC.
  { unfold user_constraints, assembled, pieces. cbn [p_cons]. destruct c3; cbn; now rewrite ?app_nil_r. }
  unfold user_feasible. rewrite UC. cbn [assembled p_n].
  assert (List.length x = num_dec (oc_op o) -> (Forall (fun v => v = 0) (match c3 with Some c => c_f c x | None => [] end) <-> forall pairs g q, cyc_now = Some pairs -> In (g, q) pairs -> exists v, val o x g q 0 v /\ val o x g q (cf_n cfg * (t_stages (oc_tr o) - 1)) v)) as S3.
  { intro Lx. pose proof (co_3 _ _ _ _ _ _ _ C) as D. pose proof (fa_cyc _ _ _ _ _ F) as E. destruct (a_cyc a) as [cv|], c3 as [c|]; try contradiction.
    - destruct D as (_ & _ & _ & _ & D). destruct E as (E1 & E2 & E3). rewrite E3. rewrite (cyclic_sem _ _ _ _ _ _ _ M _ B MO (fa_ns _ _ _ _ _ F) (cf_noncyclic cfg) cv x _ E1 E2 Lx (D x Lx)). split; [intros H pairs g q X; injection X as <-; apply H|intros H g q; apply H; reflexivity].
    - rewrite E. split; [discriminate|constructor]. }
  pose proof (fun Lx => algebra_sem _ _ _ _ _ _ _ _ _ M _ B MO (fa_lfm _ _ _ _ _ F) (fa_ns _ _ _ _ _ F) (fa_hm _ _ _ _ _ F) (params_asked p cs) x c1 Lx (co_1f _ _ _ _ _ _ _ C)) as S1.
  pose proof (fun Lx => continuity_sem _ _ _ _ _ _ _ _ M _ B (fa_hl _ _ _ _ _ F) x _ Lx (co_2f _ _ _ _ _ _ _ C x Lx)) as S2.
  pose proof (fun Lx => bounds_sem _ _ _ _ _ _ _ M _ B (fa_ns _ _ _ _ _ F) ops x Lx (fa_bd _ _ _ _ _ F) (fa_nd _ _ _ _ _ F)) as S4. rewrite <- (fa_st _ _ _ _ _ F), (fa_bounds _ _ _ _ _ F), (fa_bcs _ _ _ _ _ F) in S4.
  rewrite !Forall_app. split.
  - intros (Lx & H4 & H1 & H2 & H3). constructor; [exact Lx|exact (proj1 (S1 Lx) H1)|exact (proj1 (S2 Lx) H2)|exact (proj1 (S3 Lx) H3)|exact (proj1 (S4 Lx) H4)].
  - intros [Lx H1 H2 H3 H4]. split; [exact Lx|]. split; [exact (proj2 (S4 Lx) H4)|]. split; [exact (proj2 (S1 Lx) H1)|]. split; [exact (proj2 (S2 Lx) H2)|exact (proj2 (S3 Lx) H3)].
Qed.
End Whole.
