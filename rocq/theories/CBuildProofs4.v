(** Lemmas for condensed problems, part 4: the composite problem of a history and what its feasible points mean. *)
From Verif Require Import Base RBase TreeModel UtilsModel UtilsProofs UtilsProofs2 IoModel CollocModel CollocProofs CollocProps MeshModel MeshProofs MeshProps OcpModel OcpProofs OcpProofs2 OcpProofs3 OcpSpec OcpProps NlpModel NlpSpec NlpProofs NlpProofs2 NlpProps NlpProps2
  AlgModel AlgSpec AlgProofs AlgProps ConvModel ConvSpec ConvProps CyclicModel CyclicSpec ObjModel ObjSpec BoundModel BoundSpec BoundProofs ScaleModel ScaleSpec ScaleProofs ScaleProps SolverProofs BuildModel BuildSpec BuildProofs BuildProofs2 BuildProofs3 BuildProofs4 BuildProofs5 BuildProofs6 CondModel CondSpec CondProofs CondProofs2 CondProofs3 CondProofs4 CondProps CondProps2 CBuildModel CBuildSpec CBuildProofs CBuildProofs2 CBuildProofs3.

Lemma no_params_asked : forall P (p : P) cs, Forall no_params cs -> params_asked p cs = p.
Proof. intros P p cs. unfold params_asked, latest. revert p. induction cs as [|c cs IH]; intros p H; [reflexivity|]. apply Forall_cons_iff in H. destruct H as [H1 H2]. cbn [fold_left]. destruct c; cbn in H1; try contradiction; now apply IH. Qed.

Section CWhole.
Variables (roots : list R -> list R) (P : Type) (M : smodel P) (cfg : sim_config) (fixed : option R) (p : P) (x0 : list R) (cs : list (scall P)) (k : cattrs P).
Hypothesis HO : oracle_ok roots (cf_tns cfg).
Hypothesis Hn : (1 <= cf_n cfg)%nat.
Hypothesis Hst : m_states M <> [].
Hypothesis MO : model_ok M (cf_con cfg).
Hypothesis HT : fixed <> None -> In "time" (m_states M).
Hypothesis HW : forall w, cf_pen cfg = Some w -> NoDup (keys w) /\ incl (keys w) (m_inputs M).
Hypothesis HH : chistory roots M cfg fixed p x0 cs = Ok k.
Hypothesis HP : Forall plain cs.
Let cfg' := config_after M cfg.
Let nimp := num_implicit_res (names_of M (cf_con cfg)).
Let now := fixed_now P fixed cs.

(** everything about the problem: [a] is the full problem with the same attributes *)
Record whole (a : attrs P) (o : ocp) (fm pl : list R) (ops : list bop) (h : list (list scale_config)) (ob : bobj) (ob2 : option bobj) (c1 c2 : bcon) (c3 : option bcon) (cc : bcon) (o0 : ocp) (alg0 : bcon) (js : list nat * list nat) : Prop := {
  wh_np : Forall no_params cs;
  wh_hist : history roots M cfg' fixed p cs = Ok a;
  wh_twin : twin k a p js (Some (scales_asked (cf_scales cfg) cs));
  wh_facts : facts roots P M cfg' fixed p cs a o fm pl ops h;
  wh_comp : composed P M cfg' fixed p cs a o fm ob ob2 c1 c2 c3;
  wh_stored : stored now o fm M (cf_con cfg) p c1;
  wh_o0 : exists r, OcpSpec.built roots (cf_tname cfg) (cf_tns cfg) (cf_n cfg) (m_states M) (m_inputs M) (cf_con cfg) (cf_points cfg) r o0 /\ r = fixed; 
  wh_op : oc_op o0 = oc_op o;
  wh_stored0 : stored fixed o0 fm M (cf_con cfg) p alg0;
  wh_same : now = fixed -> o0 = o /\ alg0 = c1;
  wh_js : condensed_jacobianstructure o0 alg0 nimp x0 = Ok js;
  wh_con : condensed_con M k c1 = Ok cc;
  wh_arg : con_arg cc; wh_nin : c_nin cc = num_dec (oc_op o); wh_ncon : c_ncon cc = num_condensed o nimp;
  wh_f : forall x, List.length x = num_dec (oc_op o) -> condensed_constraints o c1 x = Ok (c_f cc x);
  wh_j : forall x, List.length x = num_dec (oc_op o) -> condensed_jacobian o c1 nimp (dots_of M (cf_con cfg) p) fm js x = Ok (c_j cc x);
  wh_h : forall x lam, List.length x = num_dec (oc_op o) -> List.length lam = num_condensed o nimp -> condensed_hessian o c1 nimp x lam = Ok (c_h cc x lam);
  wh_jr : c_jr cc = fst js; wh_jc : c_jc cc = snd js; wh_hr : c_hr cc = fst (condensed_hessianstructure o c1); wh_hc : c_hc cc = snd (condensed_hessianstructure o c1);
  wh_prob : cproblem_of M k = Ok (cassembled (num_dec (oc_op o)) ob ob2 cc c3 (s_dec (a_sc a)) (s_alg (a_sc (k_a k))));
  wh_inv : prob_inv (cassembled (num_dec (oc_op o)) ob ob2 cc c3 (s_dec (a_sc a)) (s_alg (a_sc (k_a k)))) }.
Lemma the_condensed : exists a o fm pl ops h ob ob2 c1 c2 c3 cc o0 alg0 js, whole a o fm pl ops h ob ob2 c1 c2 c3 cc o0 alg0 js.
Proof using HO Hn Hst MO HT HW HH HP.
  destruct (chistory_twin roots P M cfg fixed p x0 cs k HH HP) as (NP & a & o0 & pr & alg0 & js & EA & TW & EO & (a0 & A1 & A2 & A3 & A4 & A5) & EL & EJ).
  destruct (the_facts roots P M cfg' fixed p cs a HO Hn Hst MO EA HP) as (o & fm & pl & ops & h & F).
  destruct (the_pieces roots P M cfg' fixed p cs a MO HT HW o fm pl ops h F) as (ob & ob2 & c1 & c2 & c3 & C).
  destruct (the_problem roots P M cfg' fixed p cs a o fm pl ops h ob ob2 c1 c2 c3 F C) as (_ & _).
  pose proof (fa_built _ _ _ _ _ _ _ _ _ _ _ _ _ F) as Bo. fold now in Bo. change (cf_con cfg') with (cf_con cfg) in Bo. change (cf_n cfg') with (cf_n cfg) in Bo.
  pose proof (no_params_asked P p cs NP) as EP.
  destruct (the_algebra roots (cf_tname cfg) (cf_tns cfg) (cf_n cfg) (cf_points cfg) now o fm M (cf_con cfg) p Bo MO (fa_lfm _ _ _ _ _ _ _ _ _ _ _ _ _ F)) as (c1' & ST).
  assert (c1' = c1) as ->.
  { pose proof (co_1 _ _ _ _ _ _ _ _ _ _ _ _ _ _ C) as X. unfold algebra_con in X. rewrite (fa_con _ _ _ _ _ _ _ _ _ _ _ _ _ F), (fa_o _ _ _ _ _ _ _ _ _ _ _ _ _ F), (fa_mesh _ _ _ _ _ _ _ _ _ _ _ _ _ F), (fa_p _ _ _ _ _ _ _ _ _ _ _ _ _ F), EP in X. pose proof (sd_make _ _ _ _ _ _ _ ST) as Y. change (cf_con cfg') with (cf_con cfg) in X. congruence. }
  destruct (history_inv roots P M cfg' fixed p cs a EA HP) as (o0' & fm' & cyc & a0' & EO' & EF' & _ & _ & _ & _ & [I1 I2 I3 I4 I5 _ _]).
  change (make_ocp roots (cf_tname cfg) (cf_tns cfg) (cf_n cfg) (m_states M) (m_inputs M) (m_outputs M) (cf_con cfg) (m_residuals M) (cf_points cfg) fixed = Ok o0') in EO'. rewrite EO in EO'. injection EO' as <-.
  assert (oc_op (a_o a) = oc_op o0 /\ oc_mesh (a_o a) = oc_mesh o0 /\ oc_tr (a_o a) = oc_tr o0 /\ oc_nres (a_o a) = oc_nres o0) as (Q1 & Q2 & Q3 & Q4) by (rewrite I1; apply op_at). pose proof (fa_o _ _ _ _ _ _ _ _ _ _ _ _ _ F) as EAO. rewrite EAO in Q1, Q2, Q3, Q4.
  assert (flat_mesh (oc_mesh o) = Ok fm) as EF by (rewrite Q2, EF'; f_equal; rewrite <- (fa_mesh _ _ _ _ _ _ _ _ _ _ _ _ _ F); symmetry; exact I3).
  assert (OcpSpec.built roots (cf_tname cfg) (cf_tns cfg) (cf_n cfg) (m_states M) (m_inputs M) (cf_con cfg) (cf_points cfg) fixed o0) as B0 by (constructor; eauto).
  assert (List.length fm = num_stages (oc_op o0)) as L0 by (rewrite <- Q1; apply (fa_lfm _ _ _ _ _ _ _ _ _ _ _ _ _ F)).
  destruct (the_algebra roots (cf_tname cfg) (cf_tns cfg) (cf_n cfg) (cf_points cfg) fixed o0 fm M (cf_con cfg) p B0 MO L0) as (alg0' & ST0).
  assert (alg0' = alg0) as ->.
  { destruct (raw_algebra P M a0 pr alg0 A5 EL) as (c & Ec & Es). unfold algebra_con in Ec. rewrite A1, A2, A3 in Ec. assert (a_amesh a0 = fm) as Em by (rewrite EF' in A4; rewrite Q2, EF' in EF; congruence). rewrite Em in Ec. pose proof (sd_make _ _ _ _ _ _ _ ST0) as Y. rewrite Y in Ec. injection Ec as <-.
    pose proof (sd_unit _ _ _ _ _ _ _ ST0) as U0. rewrite set_in_any in Es; [|apply (sd_wf _ _ _ _ _ _ _ ST0)|rewrite U0; cbn [rescaled c_con c_ncon]; rewrite (sd_ncon _ _ _ _ _ _ _ ST0); apply repeat_length|rewrite A1, (sd_nin _ _ _ _ _ _ _ ST0); apply repeat_length].
    injection Es as <-. rewrite A1. rewrite U0 at 3. cbn [rescaled c_con]. exact U0. }
  destruct (built_ok _ _ _ _ _ _ _ _ _ _ Bo) as (K & Kn & Kd & _). destruct (built_ok _ _ _ _ _ _ _ _ _ _ B0) as (K0 & Kn0 & Kd0 & _).
  fold nimp in EJ. destruct (structure_range o0 K0 Kn0 Kd0 alg0 nimp x0 js (sd_ea _ _ _ _ _ _ _ ST0) EJ) as (R1 & R2 & R3).
  assert (num_condensed o0 nimp = num_condensed o nimp) as ENC. { unfold num_condensed, num_intervals, num_states. rewrite Q1. reflexivity. }
  rewrite ENC in R2. rewrite <- Q1 in R3.
  destruct (condensed_piece o K Kn Kd c1 nimp (dots_of M (cf_con cfg) p) fm js (sd_ea _ _ _ _ _ _ _ ST) (sd_fwd _ _ _ _ _ _ _ ST) (sd_wf _ _ _ _ _ _ _ ST) (sd_unit _ _ _ _ _ _ _ ST) R1 R2 R3) as (cc & EC & CA & CN & CM & C1s & Cf & Cj & Ch & Cr1 & Cr2 & Cr3 & Cr4).
  destruct TW as [T1 T2 T3 T4 T5 T6 T7 T8 T9 T10 T11 T12 T13]. assert (twin k a p js (Some (scales_asked (cf_scales cfg) cs))) as TW by (constructor; assumption).
  assert (condensed_con M k c1 = Ok cc) as ECC.
  { unfold condensed_con, nimp_of. rewrite T1, T2, T5, T11, T12, EAO, (fa_con _ _ _ _ _ _ _ _ _ _ _ _ _ F), EF. exact EC. }
  assert (forall q, ob2 = Some q -> obj_wf (num_dec (oc_op o)) q) as Wq. { intros q ->. pose proof (co_pen _ _ _ _ _ _ _ _ _ _ _ _ _ _ C) as D. destruct (cf_pen cfg'); [|contradiction]. exact (proj1 (proj2 D)). }
  assert (forall c, c3 = Some c -> con_arg c /\ c_nin c = num_dec (oc_op o)) as W3. { intros c ->. pose proof (co_3 _ _ _ _ _ _ _ _ _ _ _ _ _ _ C) as D. destruct (a_cyc a); [|contradiction]. exact (conj (proj1 (proj2 D)) (proj1 (proj2 (proj2 D)))). }
  destruct T13 as (T13 & T14). pose proof (fa_nres _ _ _ _ _ _ _ _ _ _ _ _ _ F) as ENR. rewrite EAO in T13, T14.
  assert (List.length (s_alg (a_sc (k_a k))) = c_ncon cc) as LA by (rewrite T14, CM; exact (calg_len _ _ _ _ _ _ _ M (cf_con cfg) Bo ENR _ T13)).
  destruct (dec_len _ _ _ _ _ _ _ M _ Bo h _ (fa_sok _ _ _ _ _ _ _ _ _ _ _ _ _ F)) as (L1 & L2). rewrite <- (fa_sc _ _ _ _ _ _ _ _ _ _ _ _ _ F) in L1, L2.
  assert (raw_problem M a = Ok (assembled (num_dec (oc_op o)) ob ob2 c1 c2 c3 (ones (num_dec (oc_op o))) (c_con c1) (c_con c2))) as ERP.
  { assert (raw_problem M a = raw_assembly (num_dec (oc_op o)) ob ob2 c1 c2 c3) as ->.
    { unfold raw_problem, raw_assembly. rewrite EAO, (co_obj _ _ _ _ _ _ _ _ _ _ _ _ _ _ C), (fa_pen _ _ _ _ _ _ _ _ _ _ _ _ _ F), (co_1 _ _ _ _ _ _ _ _ _ _ _ _ _ _ C), (co_2 _ _ _ _ _ _ _ _ _ _ _ _ _ _ C). cbn [bind].
      pose proof (co_3 _ _ _ _ _ _ _ _ _ _ _ _ _ _ C) as D. pose proof (co_pen _ _ _ _ _ _ _ _ _ _ _ _ _ _ C) as D'. destruct (add_objective _ "time" ob) as [p0|]; [|reflexivity]. cbn [bind].
      assert (match cf_pen cfg' with Some w => bind (penalty_obj o w) (add_objective p0 "inputs_penalty") | None => Ok p0 end = match ob2 with None => Ok p0 | Some q => add_objective p0 "inputs_penalty" q end) as ->. { destruct (cf_pen cfg'), ob2; try contradiction; [|reflexivity]. destruct D' as (-> & _). reflexivity. }
      destruct (match ob2 with None => Ok p0 | Some q => add_objective p0 "inputs_penalty" q end) as [p1|]; [|reflexivity]. cbn [bind].
      destruct (a_cyc a) as [cv|], c3 as [c|]; try contradiction; [|reflexivity]. destruct D as (D & _). rewrite D. reflexivity. }
    apply raw_assembly_ok; try apply C; assumption. }
  exists a, o, fm, pl, ops, h, ob, ob2, c1, c2, c3, cc, o0, alg0, js. constructor; auto.
  - exists fixed. split; [exact B0|reflexivity].
  - intro EN. assert (o0 = o) as Eo0.
    { rewrite <- EAO, I1. unfold o_at. destruct (built_ok _ _ _ _ _ _ _ _ _ _ B0) as (_ & _ & _ & _ & _ & _ & _ & _ & EFX & _). unfold now, fixed_now in EN. destruct fixed as [s|]; [|reflexivity]. destruct o0 as [z1 z2 z3 z4 z5]. unfold with_fixed. cbn [oc_fixed oc_op oc_tr oc_mesh oc_nres] in *. congruence. }
    split; [exact Eo0|]. pose proof (sd_make _ _ _ _ _ _ _ ST0) as Y0. pose proof (sd_make _ _ _ _ _ _ _ ST) as Y. rewrite Eo0 in Y0. rewrite Y in Y0. now injection Y0.
  - unfold cproblem_of, craw. rewrite (raw_ext P M (with_p (k_a k) (k_p k)) a); [|cbn [with_p a_o a_con a_pen a_amesh a_p a_cyc]; congruence..].
    rewrite ERP. cbn [bind]. rewrite (condense_ok (num_dec (oc_op o)) ob ob2 cc c3 CA CN P M k c1 c2); [|rewrite (sd_unit _ _ _ _ _ _ _ ST) at 3; cbn [rescaled c_con]; exact (sd_unit _ _ _ _ _ _ _ ST)|exact ECC].
    cbn [bind]. rewrite T9, T8, L2. apply cscaled_ok; try apply C; assumption.
  - apply cassembled_inv; try apply C; assumption.
Qed.
End CWhole.
