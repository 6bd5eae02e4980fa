(** C56: a whole optimal control problem in condensed form, from the constructor to the solution. *)
From Verif Require Import Base RBase TreeModel UtilsModel UtilsProofs UtilsProofs2 IoModel CollocModel CollocProofs CollocProps MeshModel MeshProofs MeshProps OcpModel OcpProofs OcpProofs2 OcpProofs3 OcpSpec OcpProps NlpModel NlpSpec NlpProofs NlpProofs2 NlpProps NlpProps2
  AlgModel AlgSpec AlgProofs AlgProps ConvModel ConvSpec ConvProps CyclicModel CyclicSpec ObjModel ObjSpec ObjProps BoundModel BoundSpec BoundProofs ScaleModel ScaleSpec ScaleProofs ScaleProps SolverProofs BuildModel BuildSpec BuildProofs BuildProofs2 BuildProofs3 BuildProofs4 BuildProofs5 BuildProofs6 BuildProps
  CondModel CondSpec CondProofs CondProofs2 CondProofs3 CondProofs4 CondProps CondProps2 CBuildModel CBuildSpec CBuildProofs CBuildProofs2 CBuildProofs3 CBuildProofs4 CBuildProofs5 CBuildProofs6.

(** the derivative variables of one vector and all others of another *)
Section Mix.
Variables (roots : list R -> list R) (tn : string) (tns : option nat) (n : nat) (pts : option (list R)) (fixed : option R) (o : ocp).
Context {P : Type}.
Variables (M : smodel P) (con : list string).
Let st := m_states M.
Let inp := m_inputs M.
Hypothesis B : OcpSpec.built roots tn tns n st inp con pts fixed o.
Let op := oc_op o.
Lemma mixed : forall x y, List.length x = num_dec op -> List.length y = num_dec op -> exists w, same_elsewhere o st inp con fixed y w /\ forall q s v, In q st -> val o x "states_dot" q s v -> val o w "states_dot" q s v.
Proof using B.
  intros x y Lx Ly. pose proof (built_ok _ _ _ _ _ _ _ _ _ _ B) as (K & Hn & Hd & _ & _ & _ & G2 & _).
  set (l := flat_map (fun s => map (fun q => match index_at op "states_dot" q (Z.of_nat s) with Ok j => j | Raise _ => num_dec op end) st) (seq 0 (num_stages op))).
  set (w := map (fun j => if in_dec Nat.eq_dec j l then vget j x else vget j y) (seq 0 (num_dec op))). exists w.
  assert (List.length w = num_dec op) as Lw by (unfold w; now rewrite map_length, seq_length).
  assert (forall j, (j < num_dec op)%nat -> nth_error w j = Some (if in_dec Nat.eq_dec j l then vget j x else vget j y)) as NW.
  { intros j Hj. unfold w. rewrite nth_error_map, (nth_error_nth' _ 0%nat) by (rewrite seq_length; exact Hj). rewrite seq_nth by exact Hj. reflexivity. }
  assert (forall q, In q st -> known_var st inp con fixed "states_dot" q) as KV by (intros q Hq; left; auto).
  split.
  - apply (same_iff _ _ _ _ _ _ _ M _ B y w Ly). split; [congruence|]. intros j Hj. destruct (Nat.lt_ge_cases j (num_dec op)) as [Hlt|Hge]; [|unfold vget; now rewrite !nth_overflow by lia].
    unfold vget at 1. rewrite (nth_error_nth _ _ _ (NW j Hlt)). destruct (in_dec Nat.eq_dec j l) as [Hi|]; [|reflexivity]. exfalso. unfold l in Hi. apply in_flat_map in Hi. destruct Hi as (s & Hs & Hi). apply in_seq in Hs. apply in_map_iff in Hi. destruct Hi as (q & E & Hq).
    destruct (slot_of _ _ _ _ _ _ _ M con B "states_dot" q s (KV q Hq) ltac:(fold op; lia)) as (i & Ei & _). fold op in Ei. rewrite Ei in E. subst i.
    assert (In q (gnames_of (oc_op o) "states_dot")) as Hq' by (rewrite G2; exact Hq). apply In_nth_error in Hq'. destruct Hq' as (c & Hc). apply (Hj s c); [fold op; lia|]. exists q. split; [exact Hc|exact Ei].
  - intros q s v Hq V. assert (s < num_stages op)%nat as Hs by (apply (stage_range o x "states_dot" q s v); [discriminate|exact V]). destruct (slot_of _ _ _ _ _ _ _ M con B "states_dot" q s (KV q Hq) Hs) as (j & Ej & Hj). fold op in Ej, Hj.
    apply (val_slot o w _ _ _ j v Ej). apply (val_slot o x _ _ _ j v Ej) in V. rewrite NW by exact Hj. destruct (in_dec Nat.eq_dec j l) as [|Hi].
    + f_equal. unfold vget. now apply nth_error_nth.
    + exfalso. apply Hi. unfold l. apply in_flat_map. exists s. split; [apply in_seq; lia|]. apply in_map_iff. exists q. rewrite Ej. auto.
Qed.
End Mix.

(** For every model, configuration and history of successful calls (the mesh is not replaced), with positive scales: in condensed form, what IPOPT is given
    is feasible at a point exactly when the point's derivative variables are within their own bounds (those asked for, overridden by zero at
    construction) and, with other values of the derivative variables, the point is a trajectory of the model within all other bounds and boundary
    conditions; the optima are those of least cost.  [solve] starts at the guess and returns the physical values of IPOPT's answer. *)
Theorem C56_solve : forall roots P (M : smodel P) ipopt cfg fixed p x0 cs k guess,
  oracle_ok roots (cf_tns cfg) -> (1 <= cf_n cfg)%nat -> m_states M <> [] -> model_ok M (cf_con cfg) -> (fixed <> None -> In "time" (m_states M)) ->
  (forall w, cf_pen cfg = Some w -> NoDup (keys w) /\ incl (keys w) (m_inputs M)) ->
  chistory roots M cfg fixed p x0 cs = Ok k -> Forall plain cs -> Forall (fun c => 0 < sc_v c) (scales_asked (cf_scales cfg) cs) -> List.length guess = num_dec (oc_op (a_o (k_a k))) ->
  let o := a_o (k_a k) in let st := m_states M in let inp := m_inputs M in let con := cf_con cfg in let n := cf_n cfg in
  let now := match fixed with Some s => Some (mesh_scale_asked s cs) | None => None end in
  let phys := physical o st inp con now (scales_asked (cf_scales cfg) cs) in
  exists t pl q y0, make_transcription roots (cf_tname cfg) (cf_tns cfg) = Ok t /\ points_used n (cf_points cfg) pl /\
    let cyc := if cf_cyclic cfg then Some (cyclic_pairs st inp (cf_noncyclic cfg)) else None in
    let bounds := bounds_asked (cf_bounds cfg ++ dots_to_zero st) cs in let bcs := bcs_asked (cf_bcs cfg) cs in
    let traj := trajectory o st inp con (m_residuals M) (m_forward M p) t n pl now cyc (without_dots bounds) (without_dots bcs) in
    let opt := best o st inp con (m_residuals M) (m_forward M p) t n pl now (cf_pen cfg) cyc (without_dots bounds) (without_dots bcs) in
    let dots := dots_within o st bounds bcs (n * (t_stages t - 1)) in
    phys y0 guess /\
    (forall y x, List.length y = List.length guess -> phys y x ->
       (ip_feasible (List.length guess) q y <-> dots x /\ exists z, same_elsewhere o st inp con now x z /\ traj z) /\
       (ip_optimum (List.length guess) q y <-> dots x /\ exists z, same_elsewhere o st inp con now x z /\ opt z)) /\
    (forall y status, ipopt q y0 = (y, status) -> List.length y = List.length guess ->
       (status = (-13)%Z -> csolve M ipopt k guess = Raise RuntimeError) /\
       (status <> (-13)%Z -> exists x, phys y x /\ csolve M ipopt k guess = Ok (x, status))).
Proof.
  intros roots P M ipopt cfg fixed p x0 cs k guess HO Hn Hst MO HT HW HH HP HS Lg o st inp con n now phys.
  destruct (the_condensed roots P M cfg fixed p x0 cs k HO Hn Hst MO HT HW HH HP) as (a & o' & fm & pl & ops & h & ob & ob2 & c1 & c2 & c3 & cc & o0 & alg0 & js & W).
  pose proof (wh_facts _ _ _ _ _ _ _ _ _ _ _ _ _ _ _ _ _ _ _ _ _ _ _ _ W) as F. pose proof (wh_comp _ _ _ _ _ _ _ _ _ _ _ _ _ _ _ _ _ _ _ _ _ _ _ _ W) as C. pose proof (wh_twin _ _ _ _ _ _ _ _ _ _ _ _ _ _ _ _ _ _ _ _ _ _ _ _ W) as TW.
  assert (o' = o) as -> by (unfold o; rewrite (tw_o _ _ _ _ _ TW); symmetry; apply (fa_o _ _ _ _ _ _ _ _ _ _ _ _ _ F)).
  pose proof (wh_prob _ _ _ _ _ _ _ _ _ _ _ _ _ _ _ _ _ _ _ _ _ _ _ _ W) as EP. pose proof (wh_inv _ _ _ _ _ _ _ _ _ _ _ _ _ _ _ _ _ _ _ _ _ _ _ _ W) as PI.
  set (pr := cassembled (num_dec (oc_op o)) ob ob2 cc c3 (s_dec (a_sc a)) (s_alg (a_sc (k_a k)))) in *.
  pose proof (fa_built _ _ _ _ _ _ _ _ _ _ _ _ _ F) as B. pose proof (fa_sok _ _ _ _ _ _ _ _ _ _ _ _ _ F) as SK. pose proof (fa_sc _ _ _ _ _ _ _ _ _ _ _ _ _ F) as ESC. pose proof (fa_ns _ _ _ _ _ _ _ _ _ _ _ _ _ F) as NS.
  change (cf_tname (config_after M cfg)) with (cf_tname cfg) in B. change (cf_tns (config_after M cfg)) with (cf_tns cfg) in B. change (cf_n (config_after M cfg)) with n in B, NS. change (cf_con (config_after M cfg)) with con in B. change (cf_points (config_after M cfg)) with (cf_points cfg) in B. change (cf_scales (config_after M cfg)) with (cf_scales cfg) in SK, ESC.
  fold st inp in B. change (fixed_now P fixed cs) with now in B.
  assert (reachable (num_dec (oc_op o)) pr) as RE by (exact (prob_reachable pr PI eq_refl)).
  assert (p_scales pr = s_dec (a_sc a)) as EPS by reflexivity.
  assert (Forall (fun v => 0 < v) (p_scales pr)) as DP by (rewrite EPS, ESC; exact (dec_pos _ _ _ _ _ _ _ M _ B h _ SK HS)).
  assert (con_scales_ok pr) as CP.
  { intros c Hc. assert (c = rescaled cc (s_dec (a_sc a)) (s_alg (a_sc (k_a k))) \/ exists c', c3 = Some c' /\ c = rescaled c' (s_dec (a_sc a)) (c_con c')) as Hc' by (unfold pr, cassembled, cpieces in Hc; cbn [p_cons] in Hc; destruct c3 as [c'|]; cbn in Hc; intuition eauto). destruct Hc' as [-> | (c' & E3 & ->)].
    - cbn [rescaled c_con]. destruct (tw_alg _ _ _ _ _ TW) as (T13 & T14). assert (a_o a = o) as EO by (apply (fa_o _ _ _ _ _ _ _ _ _ _ _ _ _ F)). rewrite EO in T13, T14. rewrite T14. exact (calg_pos _ _ _ _ _ _ _ M con B (fa_nres _ _ _ _ _ _ _ _ _ _ _ _ _ F) _ T13 HS).
    - cbn [rescaled c_con]. pose proof (co_3 _ _ _ _ _ _ _ _ _ _ _ _ _ _ C) as D. rewrite E3 in D. destruct (a_cyc a); [|contradiction]. destruct D as (_ & _ & _ & (m & ->) & _).
      apply Forall_forall. intros v Hv. apply repeat_spec in Hv. subst v. lra. }
  destruct (BoundProps.C26_lower_le_upper _ _ _ _ _ _ _ _ _ _ ops B) as (L1 & L2 & _). rewrite <- (fa_st _ _ _ _ _ _ _ _ _ _ _ _ _ F), <- (tw_bd _ _ _ _ _ TW) in L1, L2.
  assert (forall y x, List.length y = num_dec (oc_op o) -> (phys y x <-> x = vmul y (p_scales pr))) as PH.
  { intros y x Ly. rewrite EPS, ESC. exact (physical_iff _ _ _ _ _ _ _ M _ B NS h _ SK y x Ly). }
  assert (p_cons pr <> []) as NE by (unfold pr, cassembled, cpieces; cbn [p_cons]; destruct c3; discriminate).
  destruct (C18_solve ipopt _ pr (lbs (a_bd (k_a k))) (ubs (a_bd (k_a k))) guess RE NE DP CP L1 L2 Lg) as (p' & q & y0 & _ & _ & EP' & Ly0 & Ey0 & HOpt & HFea & HSol). specialize (EP' ltac:(discriminate)). subst p'.
  exists (oc_tr o), pl, q, y0. split; [exact (fa_tr _ _ _ _ _ _ _ _ _ _ _ _ _ F)|]. split; [exact (fa_pts _ _ _ _ _ _ _ _ _ _ _ _ _ F)|]. intros cyc bounds bcs traj opt dots.
  assert (forall x, user_feasible pr (lbs (a_bd (k_a k))) (ubs (a_bd (k_a k))) x <-> dots x /\ exists z, same_elsewhere o st inp con now x z /\ traj z) as FT.
  { intro x. rewrite (tw_bd _ _ _ _ _ TW). exact (cfeasible roots P M cfg fixed p x0 cs k MO a o fm pl ops h ob ob2 c1 c2 c3 cc o0 alg0 js W _ _ x). }
  assert (forall x c, List.length x = num_dec (oc_op o) -> cost o inp (oc_tr o) n now (cf_pen cfg) x c <-> c = user_objective pr x) as CO.
  { intros x c Lx. rewrite (cost_iff _ _ _ _ _ _ _ _ _ _ B (cf_pen cfg) ob ob2 x c NS Lx (co_time _ _ _ _ _ _ _ _ _ _ _ _ _ _ C x Lx)).
    - unfold pr, user_objective, cassembled. destruct ob2; cbn; split; intros ->; lra.
    - intros w E. exact (HW w E).
    - pose proof (co_pen _ _ _ _ _ _ _ _ _ _ _ _ _ _ C) as D. change (cf_pen (config_after M cfg)) with (cf_pen cfg) in D. destruct (cf_pen cfg), ob2; try contradiction; [|exact I]. apply (proj2 (proj2 D)); exact Lx. }
  assert (forall x, traj x -> List.length x = num_dec (oc_op o)) as TL by (intros x T; apply T).
  assert (now <> None -> In "time" st) as HT' by (intro X; apply HT; intro Y; apply X; unfold now; now rewrite Y).
  assert (forall x z, List.length x = num_dec (oc_op o) -> same_elsewhere o st inp con now x z -> user_objective pr z = user_objective pr x) as OS.
  { intros x z Lx SE. assert (List.length z = num_dec (oc_op o)) as Lz by (rewrite (proj1 SE); exact Lx). symmetry. apply (CO z _ Lz). apply (cost_same _ _ _ _ _ _ _ M _ B (oc_tr o) (cf_pen cfg) x z _ Lx SE HT'). now apply CO. }
  assert (forall x z, same_elsewhere o st inp con now x z -> traj z -> List.length x = num_dec (oc_op o)) as XL by (intros x z SE T; rewrite <- (proj1 SE); apply T).
  assert (forall x, user_optimum pr (lbs (a_bd (k_a k))) (ubs (a_bd (k_a k))) x <-> dots x /\ exists z, same_elsewhere o st inp con now x z /\ opt z) as OT.
  { intro x. unfold user_optimum, opt, best. rewrite FT. split.
    - intros [(DW & z & SE & T) H]. split; [exact DW|]. exists z. split; [exact SE|]. pose proof (XL x z SE T) as Lx. split; [exact T|]. exists (user_objective pr z). split; [apply CO; [apply T|reflexivity]|]. rewrite (OS x z Lx SE).
      intros y d Ty Cy. apply CO in Cy; [|apply Ty]. subst d. destruct (mixed _ _ _ _ _ _ _ M _ B x y Lx (TL y Ty)) as (w & SW & DD). rewrite <- (OS y w (TL y Ty) SW). apply H. apply FT. split.
      + intros nm s Hnm Hs. destruct (DW nm s Hnm Hs) as (v & V1 & V2). exists v. split; [now apply DD|exact V2].
      + exists y. split; [|exact Ty]. exact (same_sym _ _ _ _ _ _ _ M _ B y w (TL y Ty) SW).
    - intros (DW & z & SE & T & c & Cc & H). pose proof (XL x z SE T) as Lx. split; [split; [exact DW|exists z; auto]|]. apply CO in Cc; [|apply T]. subst c. rewrite <- (OS x z Lx SE).
      intros y Hy. apply FT in Hy. destruct Hy as (_ & zy & SY & TY). rewrite <- (OS y zy (XL y zy SY TY) SY). apply (H zy); [exact TY|]. apply CO; [apply TY|reflexivity]. }
  split; [apply PH; [exact Ly0|symmetry; exact Ey0]|]. fold o in Lg. split.
  - intros y x Ly HX. rewrite Lg in *. apply PH in HX; [|exact Ly]. subst x. rewrite <- FT, <- OT. split; [apply HFea|apply HOpt]; exact Ly.
  - intros y status EI Ly. rewrite Lg in Ly. destruct (HSol y status EI) as (S1 & S2). unfold csolve. rewrite EP. cbn [bind]. split.
    + intro E. rewrite (S1 E). reflexivity.
    + intro E. exists (vmul y (p_scales pr)). split; [now apply PH|]. rewrite (S2 E). reflexivity.
Qed.
Print Assumptions C56_solve.
