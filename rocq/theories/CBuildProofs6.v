(** Lemmas for condensed problems, part 6: feasible points. *)
From Verif Require Import Base RBase TreeModel UtilsModel UtilsProofs UtilsProofs2 IoModel CollocModel CollocProofs CollocProps MeshModel MeshProofs MeshProps OcpModel OcpProofs OcpProofs2 OcpProofs3 OcpSpec OcpProps NlpModel NlpSpec NlpProofs NlpProofs2 NlpProps NlpProps2
  AlgModel AlgSpec AlgProofs AlgProps ConvModel ConvSpec ConvProps CyclicModel CyclicSpec ObjModel ObjSpec BoundModel BoundSpec BoundProofs ScaleModel ScaleSpec ScaleProofs ScaleProps SolverProofs BuildModel BuildSpec BuildProofs BuildProofs2 BuildProofs3 BuildProofs4 BuildProofs5 BuildProofs6 CondModel CondSpec CondProofs CondProofs2 CondProofs3 CondProofs4 CondProps CondProps2 CBuildModel CBuildSpec CBuildProofs CBuildProofs2 CBuildProofs3 CBuildProofs4 CBuildProofs5.

Lemma cyclic_known : forall st inp con fixed excl g q, In (g, q) (cyclic_pairs st inp excl) -> known_var st inp con fixed g q /\ g <> "states_dot".
Proof.
  intros st inp con fixed excl g q H. unfold cyclic_pairs in H. apply filter_In in H. destruct H as [H _]. apply in_app_iff in H. destruct H as [H|H]; apply in_map_iff in H; destruct H as (w & E & Hw); injection E as <- <-; (split; [|discriminate]); [left|right; left]; auto.
Qed.
Lemma stored_constraints : forall P now o fm (M : smodel P) con p c x, stored now o fm M con p c -> List.length x = num_dec (oc_op o) -> con_constraints c x = c_f c x.
Proof.
  intros P now o fm M con p c x ST Lx. unfold con_constraints. assert (c_in c = ones (num_dec (oc_op o)) /\ c_con c = ones (num_stages (oc_op o) * num_implicit_res (names_of M con))) as [-> ->] by (rewrite (sd_unit _ _ _ _ _ _ _ ST) at 1 2; split; reflexivity).
  rewrite <- Lx, vmul_ones. rewrite <- (sd_ncon _ _ _ _ _ _ _ ST), <- (wf_f c (sd_wf _ _ _ _ _ _ _ ST) x) by (rewrite (sd_nin _ _ _ _ _ _ _ ST); exact Lx). apply vdiv_ones.
Qed.

Section CFeas.
Variables (roots : list R -> list R) (P : Type) (M : smodel P) (cfg : sim_config) (fixed : option R) (p : P) (x0 : list R) (cs : list (scall P)) (k : cattrs P).
Hypothesis MO : model_ok M (cf_con cfg).
Variables (a : attrs P) (o : ocp) (fm pl : list R) (ops : list bop) (h : list (list scale_config)) (ob : bobj) (ob2 : option bobj) (c1 c2 : bcon) (c3 : option bcon) (cc : bcon) (o0 : ocp) (alg0 : bcon) (js : list nat * list nat).
Hypothesis W : whole roots P M cfg fixed p x0 cs k a o fm pl ops h ob ob2 c1 c2 c3 cc o0 alg0 js.
Let st := m_states M.
Let inp := m_inputs M.
Let con := cf_con cfg.
Let n := cf_n cfg.
Let now := fixed_now P fixed cs.
Let last := (n * (t_stages (oc_tr o) - 1))%nat.
Let bounds := bounds_asked (cf_bounds (config_after M cfg)) cs.
Let bcs := bcs_asked (cf_bcs cfg) cs.
Let cyc := cyc_now P M cfg.
Let traj := trajectory o st inp con (m_residuals M) (m_forward M p) (oc_tr o) n pl now cyc (without_dots bounds) (without_dots bcs).

Lemma cfeasible : forall s k1 x, user_feasible (cassembled (num_dec (oc_op o)) ob ob2 cc c3 s k1) (lbs (a_bd a)) (ubs (a_bd a)) x <->
  dots_within o st bounds bcs last x /\ exists z, same_elsewhere o st inp con now x z /\ traj z.
Proof using MO W.
  intros s k1 x. pose proof (wh_facts _ _ _ _ _ _ _ _ _ _ _ _ _ _ _ _ _ _ _ _ _ _ _ _ W) as F. pose proof (wh_comp _ _ _ _ _ _ _ _ _ _ _ _ _ _ _ _ _ _ _ _ _ _ _ _ W) as C. pose proof (wh_stored _ _ _ _ _ _ _ _ _ _ _ _ _ _ _ _ _ _ _ _ _ _ _ _ W) as ST.
  pose proof (fa_built _ _ _ _ _ _ _ _ _ _ _ _ _ F) as B. change (cf_tname (config_after M cfg)) with (cf_tname cfg) in B. change (cf_tns (config_after M cfg)) with (cf_tns cfg) in B. change (cf_n (config_after M cfg)) with n in B. change (cf_con (config_after M cfg)) with con in B. change (cf_points (config_after M cfg)) with (cf_points cfg) in B. fold st inp now in B.
  assert (user_constraints (cassembled (num_dec (oc_op o)) ob ob2 cc c3 s k1) x = match c3 with Some c => c_f c x | None => [] end ++ c_f cc x) as UC.
  { unfold user_constraints, cassembled, cpieces. cbn [p_cons]. destruct c3; cbn; now rewrite ?app_nil_r. }
  unfold user_feasible. rewrite UC. cbn [cassembled p_n].
  pose proof (no_params_asked P p cs (wh_np _ _ _ _ _ _ _ _ _ _ _ _ _ _ _ _ _ _ _ _ _ _ _ _ W)) as EPA.
  assert (List.length x = num_dec (oc_op o) -> (Forall (fun v => v = 0) (match c3 with Some c => c_f c x | None => [] end) <-> forall pairs g q, cyc = Some pairs -> In (g, q) pairs -> exists v, val o x g q 0 v /\ val o x g q last v)) as S3.
  { intro Lx. pose proof (co_3 _ _ _ _ _ _ _ _ _ _ _ _ _ _ C) as D. pose proof (fa_cyc _ _ _ _ _ _ _ _ _ _ _ _ _ F) as E. change (cyc_now P M (config_after M cfg)) with cyc in E. destruct (a_cyc a) as [cv|], c3 as [c|]; try contradiction.
    - destruct D as (_ & _ & _ & _ & D). destruct E as (E1 & E2 & E3). rewrite E3. rewrite (cyclic_sem _ _ _ _ _ _ _ M _ B MO (fa_ns _ _ _ _ _ _ _ _ _ _ _ _ _ F) (cf_noncyclic cfg) cv x _ E1 E2 Lx (D x Lx)). split; [intros H pairs g q X; injection X as <-; apply H|intros H g q; apply H; reflexivity].
    - rewrite E. split; [discriminate|constructor]. }
  pose proof (fun z Lz => algebra_sem _ _ _ _ _ _ _ _ _ M _ B MO (fa_lfm _ _ _ _ _ _ _ _ _ _ _ _ _ F) (fa_ns _ _ _ _ _ _ _ _ _ _ _ _ _ F) (fa_hm _ _ _ _ _ _ _ _ _ _ _ _ _ F) (params_asked p cs) z c1 Lz (co_1f _ _ _ _ _ _ _ _ _ _ _ _ _ _ C)) as S1.
  rewrite EPA in S1.
  pose proof (fun z zs Lz => continuity_sem _ _ _ _ _ _ _ _ M _ B (fa_hl _ _ _ _ _ _ _ _ _ _ _ _ _ F) z zs Lz) as S2.
  pose proof (fun Lx => bounds_sem _ _ _ _ _ _ _ M _ B (fa_ns _ _ _ _ _ _ _ _ _ _ _ _ _ F) ops x Lx (fa_bd _ _ _ _ _ _ _ _ _ _ _ _ _ F) (fa_nd _ _ _ _ _ _ _ _ _ _ _ _ _ F)) as S4. rewrite <- (fa_st _ _ _ _ _ _ _ _ _ _ _ _ _ F), (fa_bounds _ _ _ _ _ _ _ _ _ _ _ _ _ F), (fa_bcs _ _ _ _ _ _ _ _ _ _ _ _ _ F) in S4.
  change (bounds_asked (cf_bounds (config_after M cfg)) cs) with bounds in S4. change (bcs_asked (cf_bcs (config_after M cfg)) cs) with bcs in S4.
  assert (forall g, known_var st inp con now g = known_var st inp con now g) as _ by reflexivity.
  assert (forall pairs g q, cyc = Some pairs -> In (g, q) pairs -> known_var st inp con now g q /\ g <> "states_dot") as KC.
  { intros pairs g q E HI. unfold cyc, cyc_now in E. destruct (cf_cyclic cfg); [|discriminate]. injection E as <-. exact (cyclic_known _ _ _ _ _ _ _ HI). }
  pose proof (fa_ns _ _ _ _ _ _ _ _ _ _ _ _ _ F) as NS. change (cf_n (config_after M cfg)) with n in NS. fold last in NS.
  rewrite Forall_app. split.
  - intros (Lx & H4 & H3 & H1). destruct (C29_equivalence _ _ _ _ _ _ _ _ _ _ _ _ x B (sd_ea _ _ _ _ _ _ _ ST) Lx) as (z & zs & rs & SD & _ & _ & EC & _ & _ & ED & EZ).
    rewrite (wh_f _ _ _ _ _ _ _ _ _ _ _ _ _ _ _ _ _ _ _ _ _ _ _ _ W x Lx) in ED. injection ED as ED. rewrite ED in H1. apply EZ in H1. destruct H1 as [H1 H2].
    pose proof (proj1 (same_iff _ _ _ _ _ _ _ M _ B x z Lx) SD) as SE. fold st inp con now in SE. assert (List.length z = num_dec (oc_op o)) as Lz by (rewrite (proj1 SE); exact Lx).
    rewrite (stored_constraints _ _ _ _ _ _ _ _ z ST Lz) in H2. split.
    { intros q t Hq Ht. apply (proj1 (S4 Lx) H4); [left; auto|exact Ht]. }
    exists z. split; [exact SE|]. constructor; [exact Lz|exact (proj1 (S1 z Lz) H2)|exact (proj1 (S2 z zs Lz EC) H1)| |].
    + intros pairs g q E HI. destruct (KC pairs g q E HI) as [KV KG]. destruct (proj1 (S3 Lx) H3 pairs g q E HI) as (v & V1 & V2). exists v. split; apply SE; assumption.
    + intros g q t HK Ht. destruct (String.eqb_spec g "states_dot") as [->|Hg].
      * rewrite expected_dots. destruct (has_val _ _ _ _ _ _ _ M _ B z "states_dot" q t Lz HK ltac:(lia)) as (v & V). exists v. cbn. auto.
      * rewrite expected_other by (eapply prefix_other; eassumption). destruct (proj1 (S4 Lx) H4 g q t HK Ht) as (v & V1 & V2). exists v. split; [apply SE; assumption|exact V2].
  - intros (DW & z & SE & T). destruct T as [Lz H1 H2 H3 H4]. assert (List.length x = num_dec (oc_op o)) as Lx by (rewrite <- (proj1 SE); exact Lz).
    pose proof (same_sym _ _ _ _ _ _ _ M _ B x z Lx SE) as SE'. split; [exact Lx|]. split; [|split].
    + apply (S4 Lx). intros g q t HK Ht. destruct (String.eqb_spec g "states_dot") as [->|Hg].
      * apply DW; [|exact Ht]. destruct HK as [[_ Hq]|[[X _]|[[X _]|(X & _)]]]; try discriminate. exact Hq.
      * destruct (H4 g q t HK Ht) as (v & V1 & V2). rewrite expected_other in V2 by (eapply prefix_other; eassumption). exists v. split; [apply SE'; assumption|exact V2].
    + apply (S3 Lx). intros pairs g q E HI. destruct (KC pairs g q E HI) as [KV KG]. destruct (H3 pairs g q E HI) as (v & V1 & V2). exists v. split; apply SE'; assumption.
    + pose proof (proj2 (S1 z Lz) H1) as Z1. pose proof (co_2f _ _ _ _ _ _ _ _ _ _ _ _ _ _ C z Lz) as EC. pose proof (proj2 (S2 z _ Lz EC) H2) as Z2.
      rewrite <- (stored_constraints _ _ _ _ _ _ _ _ z ST Lz) in Z1.
      destruct (C29_full_to_condensed _ _ _ _ _ _ _ _ _ _ _ _ x z _ B (sd_ea _ _ _ _ _ _ _ ST) Lx (proj2 (same_iff _ _ _ _ _ _ _ M _ B x z Lx) SE) EC Z2 Z1) as (v & EV & HV).
      rewrite (wh_f _ _ _ _ _ _ _ _ _ _ _ _ _ _ _ _ _ _ _ _ _ _ _ _ W x Lx) in EV. injection EV as ->. exact HV.
Qed.
End CFeas.
