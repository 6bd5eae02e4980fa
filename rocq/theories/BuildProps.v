(** C51: a whole optimal control problem, from the constructor to the solution. *)
From Verif Require Import Base RBase TreeModel UtilsModel UtilsProofs IoModel CollocModel CollocProps MeshModel MeshProps OcpModel OcpSpec NlpModel NlpSpec NlpProofs NlpProofs2 NlpProps NlpProps2
  AlgModel AlgSpec ConvModel ConvSpec CyclicModel CyclicSpec ObjModel ObjSpec ObjProps BoundModel BoundSpec ScaleModel ScaleSpec SolverProofs BuildModel BuildSpec BuildProofs BuildProofs2 BuildProofs3 BuildProofs4 BuildProofs5 BuildProofs6.

Lemma penalty_ext : forall w inp m v v', (forall s k, (s < m)%nat -> (k < List.length inp)%nat -> v s k = v' s k) -> penalty w inp m v = penalty w inp m v'.
Proof.
  intros w inp m v v' H. unfold penalty. f_equal. f_equal. apply map_ext_in. intros s Hs. apply in_seq in Hs. f_equal. apply map_ext_in. intros k Hk. apply in_seq in Hk. rewrite H by lia. reflexivity.
Qed.
(** the cost, in terms of the two objectives *)
Lemma cost_iff : forall roots tn tns n st inp con pts now o, OcpSpec.built roots tn tns n st inp con pts now o -> forall pen ob ob2 x c,
  num_stages (oc_op o) = (n * (t_stages (oc_tr o) - 1) + 1)%nat -> List.length x = num_dec (oc_op o) -> time_spent o (oc_tr o) n now x (o_f ob x) ->
  (forall w, pen = Some w -> NoDup (keys w) /\ incl (keys w) inp) ->
  match pen, ob2 with None, None => True | Some w, Some q => inputs_penalty o w x = Ok (o_f q x) | _, _ => False end ->
  (cost o inp (oc_tr o) n now pen x c <-> c = o_f ob x + match ob2 with Some q => o_f q x | None => 0 end).
Proof.
  intros roots tn tns n st inp con pts now o B pen ob ob2 x c NS Lx T HW HP.
  assert (forall tm, time_spent o (oc_tr o) n now x tm -> tm = o_f ob x) as TU.
  { intros tm Y. unfold time_spent in *. destruct now.
    - destruct T as (t0 & t1 & V0 & V1 & ->). destruct Y as (t0' & t1' & V0' & V1' & ->). rewrite (val_fun _ _ _ _ _ _ _ V0 V0'), (val_fun _ _ _ _ _ _ _ V1 V1'). reflexivity.
    - unfold mesh_length in *. exact (val_fun _ _ _ _ _ _ _ Y T). }
  assert (exists v, (forall s k, (s <= n * (t_stages (oc_tr o) - 1))%nat -> (k < List.length inp)%nat -> value_at o x "inputs" (nth k inp "") s (v s k)) /\ forall w, pen = Some w -> inputs_penalty o w x = Ok (penalty w inp (n * (t_stages (oc_tr o) - 1) + 1) v)) as (v & V & E).
  { destruct pen as [w|].
    - destruct (C42_penalty_value _ _ _ _ _ _ _ _ _ _ w x B (proj1 (HW w eq_refl)) (proj2 (HW w eq_refl)) Lx) as (v & V & E). rewrite NS in *. exists v. split; [intros; apply V; lia|]. intros w' X. injection X as <-. exact E.
    - destruct (C42_penalty_value _ _ _ _ _ _ _ _ _ _ [] x B (NoDup_nil _) (fun _ X => match X with end) Lx) as (v & V & E). rewrite NS in *. exists v. split; [intros; apply V; lia|discriminate]. }
  unfold cost. split.
  - intros (tm & v' & T' & V' & ->). rewrite (TU tm T'). f_equal. destruct pen as [w|], ob2 as [q|]; try contradiction; [|reflexivity]. rewrite (E w eq_refl) in HP. injection HP as <-.
    apply penalty_ext. intros s k Hs Hk. exact (val_fun _ _ _ _ _ _ _ (V' s k ltac:(lia) Hk) (V s k ltac:(lia) Hk)).
  - intros ->. exists (o_f ob x), v. split; [exact T|]. split; [exact V|]. f_equal. destruct pen as [w|], ob2 as [q|]; try contradiction; [|reflexivity]. rewrite (E w eq_refl) in HP. now injection HP as <-.
Qed.

(** For every model, configuration and history of successful calls (the mesh is not replaced), with positive scales: what IPOPT is given has
    as feasible points exactly the trajectories of the model with the latest parameters, on the mesh asked for, within all bounds and boundary
    conditions, cyclic where asked; its optima are the trajectories of least time (plus the penalty on the inputs, if any); [solve] starts at the guess and returns the physical values
    of IPOPT's answer. *)
Theorem C51_solve : forall roots P (M : smodel P) ipopt cfg fixed p cs a guess,
  oracle_ok roots (cf_tns cfg) -> (1 <= cf_n cfg)%nat -> m_states M <> [] -> model_ok M (cf_con cfg) -> (fixed <> None -> In "time" (m_states M)) ->
  (forall w, cf_pen cfg = Some w -> NoDup (keys w) /\ incl (keys w) (m_inputs M)) ->
  history roots M cfg fixed p cs = Ok a -> Forall plain cs -> Forall (fun c => 0 < sc_v c) (scales_asked (cf_scales cfg) cs) -> List.length guess = num_dec (oc_op (a_o a)) ->
  let o := a_o a in let st := m_states M in let inp := m_inputs M in let con := cf_con cfg in let n := cf_n cfg in
  let now := match fixed with Some s => Some (mesh_scale_asked s cs) | None => None end in
  let phys := physical o st inp con now (scales_asked (cf_scales cfg) cs) in
  exists t pl q y0, make_transcription roots (cf_tname cfg) (cf_tns cfg) = Ok t /\ points_used n (cf_points cfg) pl /\
    let cyc := if cf_cyclic cfg then Some (cyclic_pairs st inp (cf_noncyclic cfg)) else None in
    let fwd := m_forward M (params_asked p cs) in let bounds := bounds_asked (cf_bounds cfg) cs in let bcs := bcs_asked (cf_bcs cfg) cs in
    phys y0 guess /\
    (forall y x, List.length y = List.length guess -> phys y x ->
       (ip_feasible (List.length guess) q y <-> trajectory o st inp con (m_residuals M) fwd t n pl now cyc bounds bcs x) /\
       (ip_optimum (List.length guess) q y <-> best o st inp con (m_residuals M) fwd t n pl now (cf_pen cfg) cyc bounds bcs x)) /\
    (forall y status, ipopt q y0 = (y, status) -> List.length y = List.length guess ->
       (status = (-13)%Z -> ocp_solve M ipopt a guess = Raise RuntimeError) /\
       (status <> (-13)%Z -> exists x, phys y x /\ ocp_solve M ipopt a guess = Ok (x, status))).
Proof.
  intros roots P M ipopt cfg fixed p cs a guess HO Hn Hst MO HT HW HH HP HS Lg o st inp con n now phys.
  destruct (the_facts roots P M cfg fixed p cs a HO Hn Hst MO HH HP) as (o' & fm & pl & ops & h & F).
  assert (o' = o) as -> by (symmetry; apply (fa_o _ _ _ _ _ _ _ _ _ _ _ _ _ F)).
  destruct (the_pieces roots P M cfg fixed p cs a MO HT HW o fm pl ops h F) as (ob & ob2 & c1 & c2 & c3 & C).
  destruct (the_problem roots P M cfg fixed p cs a o fm pl ops h ob ob2 c1 c2 c3 F C) as (EP & PI).
  set (pr := assembled (num_dec (oc_op o)) ob ob2 c1 c2 c3 (s_dec (a_sc a)) (s_alg (a_sc a)) (s_cont (a_sc a))) in *.
  pose proof (fa_built _ _ _ _ _ _ _ _ _ _ _ _ _ F) as B. pose proof (fa_sok _ _ _ _ _ _ _ _ _ _ _ _ _ F) as SK. pose proof (fa_sc _ _ _ _ _ _ _ _ _ _ _ _ _ F) as ESC.
  fold st inp con n in B. change (fixed_now P fixed cs) with now in B.
  assert (reachable (num_dec (oc_op o)) pr) as RE by (exact (prob_reachable pr PI eq_refl)).
  assert (p_scales pr = s_dec (a_sc a)) as EPS by reflexivity.
  assert (Forall (fun v => 0 < v) (p_scales pr)) as DP by (rewrite EPS, ESC; exact (dec_pos _ _ _ _ _ _ _ M _ B h _ SK HS)).
  assert (con_scales_ok pr) as CP.
  { intros c Hc. cbn in Hc. destruct Hc as [<-|[<-|Hc]].
    - cbn [rescaled c_con]. rewrite ESC. exact (alg_pos _ _ _ _ _ _ _ M _ B h _ SK HS).
    - cbn [rescaled c_con]. rewrite ESC. exact (cont_pos _ _ _ _ _ _ _ M _ B h _ SK HS).
    - destruct c3 as [c3|]; [|contradiction]. cbn in Hc. destruct Hc as [<-|[]]. cbn [rescaled c_con]. pose proof (co_3 _ _ _ _ _ _ _ _ _ _ _ _ _ _ C) as D. destruct (a_cyc a); [|contradiction]. destruct D as (_ & _ & _ & (k & ->) & _).
      apply Forall_forall. intros v Hv. apply repeat_spec in Hv. subst v. lra. }
  destruct (BoundProps.C26_lower_le_upper _ _ _ _ _ _ _ _ _ _ ops B) as (L1 & L2 & _). rewrite <- (fa_st _ _ _ _ _ _ _ _ _ _ _ _ _ F) in L1, L2.
  assert (forall y x, List.length y = num_dec (oc_op o) -> (phys y x <-> x = vmul y (p_scales pr))) as PH.
  { intros y x Ly. rewrite EPS, ESC. exact (physical_iff _ _ _ _ _ _ _ M _ B (fa_ns _ _ _ _ _ _ _ _ _ _ _ _ _ F) h _ SK y x Ly). }
  destruct (C18_solve ipopt _ pr (lbs (a_bd a)) (ubs (a_bd a)) guess RE ltac:(discriminate) DP CP L1 L2 Lg) as (p' & q & y0 & _ & _ & EP' & Ly0 & Ey0 & HOpt & HFea & HSol). specialize (EP' ltac:(discriminate)). subst p'.
  exists (oc_tr o), pl, q, y0. split; [exact (fa_tr _ _ _ _ _ _ _ _ _ _ _ _ _ F)|]. split; [exact (fa_pts _ _ _ _ _ _ _ _ _ _ _ _ _ F)|]. intros cyc fwd bounds bcs.
  assert (forall x, user_feasible pr (lbs (a_bd a)) (ubs (a_bd a)) x <-> trajectory o st inp con (m_residuals M) fwd (oc_tr o) n pl now cyc bounds bcs x) as FT.
  { intro x. exact (feasible_traj roots P M cfg fixed p cs a MO o fm pl ops h ob ob2 c1 c2 c3 _ _ _ x F C). }
  assert (forall x c, List.length x = num_dec (oc_op o) -> cost o inp (oc_tr o) n now (cf_pen cfg) x c <-> c = user_objective pr x) as CO.
  { intros x c Lx. rewrite (cost_iff _ _ _ _ _ _ _ _ _ _ B (cf_pen cfg) ob ob2 x c (fa_ns _ _ _ _ _ _ _ _ _ _ _ _ _ F) Lx (co_time _ _ _ _ _ _ _ _ _ _ _ _ _ _ C x Lx)).
    - unfold pr, user_objective, assembled. destruct ob2; cbn; split; intros ->; lra.
    - intros w E. exact (HW w E).
    - pose proof (co_pen _ _ _ _ _ _ _ _ _ _ _ _ _ _ C) as D. destruct (cf_pen cfg), ob2; try contradiction; [|exact I]. apply (proj2 (proj2 D)); exact Lx. }
  assert (forall x, user_optimum pr (lbs (a_bd a)) (ubs (a_bd a)) x <-> best o st inp con (m_residuals M) fwd (oc_tr o) n pl now (cf_pen cfg) cyc bounds bcs x) as OT.
  { intro x. unfold user_optimum, best. rewrite FT. split.
    - intros [T H]. split; [exact T|]. exists (user_objective pr x). split; [apply CO; [apply T|reflexivity]|]. intros y d Ty Cy. apply CO in Cy; [|apply Ty]. subst d. apply H. now apply FT.
    - intros [T (c & Cc & H)]. split; [exact T|]. apply CO in Cc; [|apply T]. subst c. intros y Hy. apply FT in Hy. apply (H y); [exact Hy|]. apply CO; [apply Hy|reflexivity]. }
  split; [apply PH; [exact Ly0|symmetry; exact Ey0]|]. fold o in Lg. split.
  - intros y x Ly HX. rewrite Lg in *. apply PH in HX; [|exact Ly]. subst x. rewrite <- FT, <- OT. split; [apply HFea|apply HOpt]; exact Ly.
  - intros y status EI Ly. rewrite Lg in Ly. destruct (HSol y status EI) as (S1 & S2). unfold ocp_solve. rewrite EP. cbn [bind]. split.
    + intro E. rewrite (S1 E). reflexivity.
    + intro E. exists (vmul y (p_scales pr)). split; [now apply PH|]. rewrite (S2 E). reflexivity.
Qed.
Print Assumptions C51_solve.
