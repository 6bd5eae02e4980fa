(** C56, continued: the derivative variables, the full form, and which problems can be constructed. *)
From Verif Require Import Base RBase TreeModel UtilsModel UtilsProofs UtilsProofs2 IoModel CollocModel CollocProofs CollocProps MeshModel MeshProofs MeshProps OcpModel OcpProofs OcpProofs2 OcpProofs3 OcpSpec OcpProps NlpModel NlpSpec NlpProofs NlpProofs2 NlpProps NlpProps2
  AlgModel AlgSpec AlgProofs AlgProps ConvModel ConvSpec ConvProps CyclicModel CyclicSpec ObjModel ObjSpec ObjProps BoundModel BoundSpec BoundProofs ScaleModel ScaleSpec ScaleProofs ScaleProps SolverProofs BuildModel BuildSpec BuildProofs BuildProofs2 BuildProofs3 BuildProofs4 BuildProofs5 BuildProofs6 BuildProps BuildProps2
  CondModel CondSpec CondProofs CondProofs2 CondProofs3 CondProofs4 CondProps CondProps2 CBuildModel CBuildSpec CBuildProofs CBuildProofs2 CBuildProofs3 CBuildProofs4 CBuildProofs5 CBuildProofs6 CBuildProps.


(** ** The derivative variables *)
Lemma last_app : forall op g q s l l', last_about op g q s (l ++ l') = match last_about op g q s l' with Some c => Some c | None => last_about op g q s l end.
Proof. intros op g q s l l'. unfold last_about. rewrite rev_app_distr. induction (rev l') as [|c r IH]; [reflexivity|]. cbn [app find]. destruct (about op g q s c); [reflexivity|exact IH]. Qed.
Lemma no_dots_last : forall op q s l, (forall c, In c l -> on_dots c = false) -> last_about op "states_dot" q s l = None.
Proof.
  intros op q s l H. unfold last_about. destruct (find _ (rev l)) as [c|] eqn:E; [|reflexivity]. apply find_some in E. destruct E as [HI HA]. apply in_rev in HI. specialize (H c HI). rewrite on_dots_svname, (about_name _ _ _ _ _ HA), prefix_dots in H. discriminate.
Qed.
Lemma zero_last : forall op st q s, In q st -> exists c, last_about op "states_dot" q s (map of_bound (dots_to_zero st)) = Some c /\ value_for "states_dot" s c = (Fin 0, Fin 0).
Proof.
  intros op st q s Hq. unfold last_about. destruct (find _ (rev _)) as [c|] eqn:E.
  - apply find_some in E. destruct E as [HI _]. apply in_rev in HI. unfold dots_to_zero in HI. rewrite map_map in HI. apply in_map_iff in HI. destruct HI as (w & <- & _). exists (of_bound {| bg := "states_dot"; bn := w; bv := BSc (Fin 0) (Fin 0) |}). split; reflexivity.
  - exfalso. assert (In (of_bound {| bg := "states_dot"; bn := q; bv := BSc (Fin 0) (Fin 0) |}) (rev (map of_bound (dots_to_zero st)))) as HI.
    { rewrite <- in_rev. apply in_map. unfold dots_to_zero. apply in_map_iff. exists q. auto. }
    pose proof (find_none _ _ E _ HI) as X. unfold about in X. cbn [of_bound k_g k_n k_stage bg bn] in X. rewrite String.eqb_refl in X. discriminate.
Qed.
(** Unless boundary conditions or later calls address them, the derivative variables of a condensed problem are fixed to zero, whatever bounds the
    configuration gave them. *)
Theorem C56_dots : forall P (o : ocp) st cfg (cs : list (scall P)) last x,
  (forall c, In c (bcs_asked (cf_bcs cfg) cs) \/ In c (bounds_asked [] cs) -> on_dots c = false) ->
  dots_within o st (bounds_asked (cf_bounds cfg ++ dots_to_zero st) cs) (bcs_asked (cf_bcs cfg) cs) last x <-> dots_zero o st last x.
Proof.
  intros P o st cfg cs last x H.
  assert (forall q s, In q st -> expected (oc_op o) (bounds_asked (cf_bounds cfg ++ dots_to_zero st) cs) (bcs_asked (cf_bcs cfg) cs) "states_dot" q s = (Fin 0, Fin 0)) as E.
  { intros q s Hq. unfold expected. rewrite no_dots_last by auto. unfold bounds_asked. rewrite <- app_assoc, !map_app, !last_app. rewrite (no_dots_last _ _ _ (map of_bound (flat_map _ cs))) by (intros c Hc; apply H; right; exact Hc).
    destruct (zero_last (oc_op o) st q s Hq) as (c & -> & E). exact E. }
  unfold dots_within, dots_zero. split.
  - intros D nm s Hn Hs. destruct (D nm s Hn Hs) as (v & V & H1 & H2). rewrite (E nm s Hn) in H1, H2. cbn in H1, H2. replace 0 with v by lra. exact V.
  - intros D nm s Hn Hs. exists 0. rewrite (E nm s Hn). split; [now apply D|]. cbn. lra.
Qed.
Print Assumptions C56_dots.

(** ** The full form *)
Lemma used_fun : forall n arg p q, points_used n arg p -> points_used n arg q -> p = q.
Proof.
  intros n [a|] p q H1 H2; unfold points_used in *; [congruence|]. destruct H1 as [L1 H1]. destruct H2 as [L2 H2]. apply (nth_ext _ _ 0 0); [congruence|]. intros i Hi. rewrite H1, H2 by lia. reflexivity.
Qed.
Lemma without_none : forall l, (forall c, In c l -> on_dots c = false) -> without_dots l = l.
Proof. induction l as [|c l IH]; intro H; [reflexivity|]. unfold without_dots. cbn [filter]. rewrite (H c (or_introl eq_refl)). cbn [negb]. f_equal. apply IH. intros d Hd. apply H. now right. Qed.
Lemma same_problem : forall roots P (M : smodel P) cfg fixed p x0 cs k a, chistory roots M cfg fixed p x0 cs = Ok k -> history roots M cfg fixed p cs = Ok a -> Forall plain cs -> a_o a = a_o (k_a k).
Proof.
  intros roots P M cfg fixed p x0 cs k a HC HH HP. destruct (chistory_twin roots P M cfg fixed p x0 cs k HC HP) as (_ & a' & o0 & pr & alg0 & js & EA & TW & _). rewrite (tw_o _ _ _ _ _ TW).
  destruct (history_inv roots P M cfg fixed p cs a HH HP) as (o1 & ? & ? & ? & E1 & _ & _ & _ & _ & _ & [I1 _ _ _ _ _ _]). destruct (history_inv roots P M _ fixed p cs a' EA HP) as (o2 & ? & ? & ? & E2 & _ & _ & _ & _ & _ & [I2 _ _ _ _ _ _]).
  change (cf_tname (config_after M cfg)) with (cf_tname cfg) in E2. change (cf_tns (config_after M cfg)) with (cf_tns cfg) in E2. change (cf_n (config_after M cfg)) with (cf_n cfg) in E2. change (cf_con (config_after M cfg)) with (cf_con cfg) in E2. change (cf_points (config_after M cfg)) with (cf_points cfg) in E2.
  rewrite E1 in E2. injection E2 as <-. congruence.
Qed.
(** The condensed and the full form of a problem have the same solutions, when no setting addresses the derivative variables: a point is feasible
    (optimal) for the condensed problem exactly when its derivative variables are zero and it agrees in all others with a feasible (optimal) point of the full one. *)
Theorem C56_full : forall roots P (M : smodel P) ipopt cfg fixed p x0 cs k a guess,
  oracle_ok roots (cf_tns cfg) -> (1 <= cf_n cfg)%nat -> m_states M <> [] -> model_ok M (cf_con cfg) -> (fixed <> None -> In "time" (m_states M)) ->
  (forall w, cf_pen cfg = Some w -> NoDup (keys w) /\ incl (keys w) (m_inputs M)) ->
  chistory roots M cfg fixed p x0 cs = Ok k -> history roots M cfg fixed p cs = Ok a -> Forall plain cs -> Forall (fun c => 0 < sc_v c) (scales_asked (cf_scales cfg) cs) ->
  (forall c, In c (bounds_asked (cf_bounds cfg) cs) \/ In c (bcs_asked (cf_bcs cfg) cs) -> on_dots c = false) ->
  List.length guess = num_dec (oc_op (a_o a)) ->
  let o := a_o a in let st := m_states M in let inp := m_inputs M in let con := cf_con cfg in let N := List.length guess in
  let now := match fixed with Some s => Some (mesh_scale_asked s cs) | None => None end in
  let phys := physical o st inp con now (scales_asked (cf_scales cfg) cs) in
  exists t qf qc y0, make_transcription roots (cf_tname cfg) (cf_tns cfg) = Ok t /\ phys y0 guess /\
    (forall y x, List.length y = N -> phys y x -> let zero := dots_zero o st (cf_n cfg * (t_stages t - 1)) x in
      (ip_feasible N qc y <-> zero /\ exists y' x', List.length y' = N /\ phys y' x' /\ same_elsewhere o st inp con now x x' /\ ip_feasible N qf y') /\
      (ip_optimum N qc y <-> zero /\ exists y' x', List.length y' = N /\ phys y' x' /\ same_elsewhere o st inp con now x x' /\ ip_optimum N qf y')) /\
    (forall y status, ipopt qf y0 = (y, status) -> List.length y = N -> status <> (-13)%Z -> exists x, phys y x /\ ocp_solve M ipopt a guess = Ok (x, status)) /\
    (forall y status, ipopt qc y0 = (y, status) -> List.length y = N -> status <> (-13)%Z -> exists x, phys y x /\ csolve M ipopt k guess = Ok (x, status)).
Proof.
  intros roots P M ipopt cfg fixed p x0 cs k a guess HO Hn Hst MO HT HW HC HH HP HS HD Lg o st inp con N now phys.
  pose proof (same_problem roots P M cfg fixed p x0 cs k a HC HH HP) as EO.
  destruct (chistory_twin roots P M cfg fixed p x0 cs k HC HP) as (NP & _). pose proof (no_params_asked P p cs NP) as EPA.
  destruct (C51_solve roots P M ipopt cfg fixed p cs a guess HO Hn Hst MO HT HW HH HP HS Lg) as (t & pl & qf & y0 & ET & EU & Hy0 & HF & HSF). 
  assert (List.length guess = num_dec (oc_op (a_o (k_a k)))) as Lg' by (rewrite <- EO; exact Lg).
  destruct (C56_solve roots P M ipopt cfg fixed p x0 cs k guess HO Hn Hst MO HT HW HC HP HS Lg') as (t' & pl' & qc & y0' & ET' & EU' & Hy0' & HF' & HSC).
  rewrite <- EO in Hy0', HF', HSC. fold o st inp con now phys in Hy0, HF, HSF, Hy0', HF', HSC. rewrite ET in ET'. injection ET' as <-. rewrite <- (used_fun _ _ _ _ EU EU') in *. rewrite EPA in HF.
  destruct (the_facts roots P M cfg fixed p cs a HO Hn Hst MO HH HP) as (o' & fm & pl0 & ops & h & F). assert (o' = o) as -> by (symmetry; apply (fa_o _ _ _ _ _ _ _ _ _ _ _ _ _ F)).
  pose proof (fa_built _ _ _ _ _ _ _ _ _ _ _ _ _ F) as B. pose proof (fa_sok _ _ _ _ _ _ _ _ _ _ _ _ _ F) as SK. fold st inp con in B. change (fixed_now P fixed cs) with now in B.
  destruct (dec_len _ _ _ _ _ _ _ M _ B h _ SK) as (DL & _).
  pose proof (dec_pos _ _ _ _ _ _ _ M _ B h _ SK HS) as DP. set (s := s_dec (fst (set_scales o false (srun o false h) (scales_asked (cf_scales cfg) cs)))) in *.
  assert (forall y x, List.length y = num_dec (oc_op o) -> (phys y x <-> x = vmul y s)) as PH by (intros y x Ly; exact (physical_iff _ _ _ _ _ _ _ M _ B (fa_ns _ _ _ _ _ _ _ _ _ _ _ _ _ F) h _ SK y x Ly)).
  assert (forall x, List.length x = N -> exists y, List.length y = N /\ phys y x) as ON.
  { intros x Lx. unfold N in *. fold o in Lg. exists (vdiv x s). assert (List.length (vdiv x s) = List.length guess) as L by (rewrite vdiv_length; congruence). split; [exact L|]. apply PH; [congruence|]. apply vec_ext; [rewrite vmul_length by congruence; congruence|].
    intros i Hi. rewrite vget_vmul, vget_vdiv by lia. field. apply Rgt_not_eq. apply (Forall_vget _ _ i DP). lia. }
  assert (y0' = y0) as ->.
  { assert (List.length y0 = num_dec (oc_op o)) as L0 by (destruct Hy0 as [L _]; rewrite <- L; exact Lg). assert (List.length y0' = num_dec (oc_op o)) as L0' by (destruct Hy0' as [L _]; rewrite <- L; exact Lg).
    apply PH in Hy0, Hy0'; auto. rewrite Hy0' in Hy0. apply vec_ext; [congruence|]. intros i Hi. assert (vget i (vmul y0' s) = vget i (vmul y0 s)) as E by (now rewrite Hy0). rewrite !vget_vmul in E by lia. pose proof (Forall_vget _ _ i DP ltac:(lia)) as Q. cbv beta in Q. apply (Rmult_eq_reg_r (vget i s)); lra. }
  assert (without_dots (bounds_asked (cf_bounds cfg ++ dots_to_zero st) cs) = bounds_asked (cf_bounds cfg) cs) as EB.
  { change (cf_bounds cfg ++ dots_to_zero st) with (cf_bounds (config_after M cfg)). rewrite asked_without. apply without_none. intros c Hc. apply HD. now left. }
  assert (without_dots (bcs_asked (cf_bcs cfg) cs) = bcs_asked (cf_bcs cfg) cs) as EBC by (apply without_none; intros c Hc; apply HD; now right).
  rewrite EB, EBC in HF'.
  exists t, qf, qc, y0. split; [exact ET|]. split; [exact Hy0|]. split; [|split; [intros y status E L; apply (HSF y status E L)|intros y status E L; apply (HSC y status E L)]].
  intros y x Ly HX zero. destruct (HF' y x Ly HX) as [F1 F2]. unfold N. rewrite F1, F2.
  assert (dots_within o st (bounds_asked (cf_bounds cfg ++ dots_to_zero st) cs) (bcs_asked (cf_bcs cfg) cs) (cf_n cfg * (t_stages t - 1)) x <-> zero) as DZ.
  { apply C56_dots. intros c [Hc|Hc]; apply HD; [now right|left]. unfold bounds_asked in *. cbn [app] in Hc. rewrite map_app. apply in_app_iff. now right. }
  assert (List.length x = List.length guess) as Lx by (destruct HX as [L _]; rewrite L; exact Ly).
  split; split; (intros (D & z & SE & T) || idtac).
  - split; [now apply DZ|]. destruct (ON z) as (y' & Ly' & HY); [rewrite (proj1 SE); exact Lx|]. exists y', z. split; [exact Ly'|]. split; [exact HY|]. split; [exact SE|]. apply (proj1 (HF y' z Ly' HY)). exact T.
  - destruct T as (Ly' & HY & SE' & T). split; [now apply DZ|]. exists SE. split; [exact SE'|]. apply (proj1 (HF z SE Ly' HY)). exact T.
  - split; [now apply DZ|]. destruct (ON z) as (y' & Ly' & HY); [rewrite (proj1 SE); exact Lx|]. exists y', z. split; [exact Ly'|]. split; [exact HY|]. split; [exact SE|]. apply (proj2 (HF y' z Ly' HY)). exact T.
  - destruct T as (Ly' & HY & SE' & T). split; [now apply DZ|]. exists SE. split; [exact SE'|]. apply (proj2 (HF z SE Ly' HY)). exact T.
Qed.
Print Assumptions C56_full.
