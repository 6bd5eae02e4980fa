(** C51, continued: which problems can be constructed, which calls are accepted. *)
From Verif Require Import Base RBase TreeModel UtilsModel UtilsProofs UtilsProofs2 UtilsProps UtilsProps2 IoModel CollocModel CollocProps MeshModel MeshProofs MeshProps OcpModel OcpProofs OcpSpec OcpProps NlpModel NlpSpec NlpProofs NlpProofs2 NlpProps NlpProps2
  AlgModel AlgSpec ConvModel ConvSpec CyclicModel CyclicSpec CyclicProps ObjModel BoundModel BoundSpec BoundProofs BoundProps ScaleModel ScaleSpec ScaleProofs ScaleProps SolverProofs BuildModel BuildSpec BuildProofs BuildProofs2 BuildProofs3 BuildProofs4 BuildProofs5 BuildProofs6 BuildProps.

Lemma eleb_iff : forall l u, eleb l u = true <-> le_bound l u.
Proof. intros [|a|] [|b|]; cbn; try (split; [auto|discriminate]); try (split; [discriminate|contradiction]); try (split; auto; fail). destruct (Rle_dec a b); split; auto; try discriminate; contradiction. Qed.
Lemma run_sets_ok : forall (P : bst -> Prop) fs s, P s -> (forall f, In f fs -> forall s, P s -> exists s', f s = Ok s' /\ P s') -> exists s', run_sets fs s = (s', Ok tt) /\ P s'.
Proof.
  intros P fs; induction fs as [|f fs IH]; intros s Hs H; [exists s; auto|]. cbn [run_sets]. destruct (H f (or_introl eq_refl) s Hs) as (s1 & -> & H1). apply IH; [exact H1|]. intros g Hg. apply H. now right.
Qed.
Lemma set_bcs : forall op g n stg b s s', set_var_bounds op g n stg b s = Ok s' -> bcs s' = bcs s.
Proof.
  intros op g n stg b s s' H. unfold set_var_bounds in H. apply bind_ok in H. destruct H as (idx & _ & H). destruct b as [l u|l u].
  - destruct (eleb l u); [|discriminate]. now injection H as <-.
  - destruct (_ && _)%bool in H; [discriminate|]. destruct (negb _) in H; [discriminate|]. destruct (negb _) in H; [discriminate|]. destruct (_ && _)%bool in H; [discriminate|]. now injection H as <-.
Qed.

Section Accept.
Variables (roots : list R -> list R) (tn : string) (tns : option nat) (n : nat) (st inp con : list string) (pts : option (list R)) (fixed : option R) (o : ocp).
Hypothesis B : OcpSpec.built roots tn tns n st inp con pts fixed o.
Let op := oc_op o.
Let nst := (n * (t_stages (oc_tr o) - 1) + 1)%nat.
Lemma nst_eq : num_stages op = nst.
Proof using B. pose proof (built_ok _ _ _ _ _ _ _ _ _ _ B) as (_ & _ & _ & En & _ & _ & _ & Em & _). unfold op, num_stages. unfold num_intervals in En. rewrite En, Em. reflexivity. Qed.
Lemma known_has' : forall g q, known_var st inp con fixed g q -> has_var op g q.
Proof using B.
  intros g q Hv. pose proof (built_ok _ _ _ _ _ _ _ _ _ _ B) as (K & _). apply (known_slot _ _ _ _ _ _ _ _ _ o g q 0%nat B) in Hv. destruct Hv as [H5 Hq]. unfold has_var. unfold names5 in Hq. destruct (String.eqb_spec g "global") as [->|Hg]; [left; auto|right; split; [assumption|]].
  unfold stage_var_names. apply in_flat_map. exists g. unfold op. rewrite (oo_sg o K). split; [unfold five in H5; apply in_app_iff in H5; destruct H5 as [H5|[H5|[]]]; [assumption|congruence]|]. now apply in_map.
Qed.
Lemma setting_accepted : forall c s, setting_ok nst st inp con fixed c -> exists s', set_var_bounds op (k_g c) (k_n c) (k_stage c) (k_v c) s = Ok s'.
Proof using B.
  intros [g q stg b] s (H1 & H2 & H3). cbn [k_g k_n k_stage k_v] in *. apply (C26_set_accepts _ _ _ _ _ _ _ _ _ _ g q stg b s B). fold op. split; [now apply known_has'|]. split.
  - intro Hg. specialize (H2 Hg). destruct stg; [|exact I]. unfold stage_in_range. rewrite nst_eq. exact H2.
  - destruct b as [l u|l u]; [now apply eleb_iff|]. destruct H3 as (E1 & E2 & E3). split; [assumption|]. split; [intros i Hi; apply eleb_iff; auto|]. rewrite nst_eq. exact E3.
Qed.
Definition bcs_ok (s : bst) : Prop := forall c, In c (bcs s) -> setting_ok nst st inp con fixed (of_bc c).
Lemma apply_bcs_ok : forall s, bcs_ok s -> exists s', apply_bcs op s = (s', Ok tt) /\ bcs_ok s'.
Proof using B.
  intros s H. unfold apply_bcs. destruct (run_sets_ok (fun s' => bcs s' = bcs s) (map (fun c => set_var_bounds op (cg c) (cn c) (Some (cstage c)) (cv c)) (bcs s)) s eq_refl) as (s' & E & Q).
  - intros f Hf s1 E1. apply in_map_iff in Hf. destruct Hf as (c & <- & Hc). destruct (setting_accepted (of_bc c) s1 (H c Hc)) as (s2 & E2). cbn in E2. exists s2. split; [exact E2|]. rewrite <- E1. eapply set_bcs; exact E2.
  - exists s'. split; [exact E|]. unfold bcs_ok. rewrite Q. exact H.
Qed.
Lemma update_bounds_ok : forall bs s, bcs_ok s -> (forall b, In b bs -> setting_ok nst st inp con fixed (of_bound b)) -> exists s', update_bounds op bs s = (s', Ok tt) /\ bcs_ok s'.
Proof using B.
  intros bs s H Hb. unfold update_bounds. destruct (run_sets_ok (fun s' => bcs s' = bcs s) (map (fun b => set_var_bounds op (bg b) (bn b) None (bv b)) bs) s eq_refl) as (s' & E & Q).
  - intros f Hf s1 E1. apply in_map_iff in Hf. destruct Hf as (c & <- & Hc). destruct (setting_accepted (of_bound c) s1 (Hb c Hc)) as (s2 & E2). cbn in E2. exists s2. split; [exact E2|]. rewrite <- E1. eapply set_bcs; exact E2.
  - rewrite E. apply apply_bcs_ok. unfold bcs_ok. rewrite Q. exact H.
Qed.
Lemma update_bcs_ok : forall l s, bcs_ok s -> (forall b, In b l -> setting_ok nst st inp con fixed (of_bc b)) -> exists s', update_bcs op l s = (s', Ok tt) /\ bcs_ok s'.
Proof using B.
  intros l s H Hb. unfold update_bcs. apply apply_bcs_ok. intros c Hc. cbn [bcs] in Hc. apply in_app_iff in Hc. destruct Hc; auto.
Qed.
Lemma set_scales_accepts : forall s scs, (forall b, In b scs -> scale_ok st inp con fixed b) -> snd (set_scales o false s scs) = Ok tt.
Proof using B.
  intros s scs H. pose proof (proj2 (C27_accepts _ _ _ _ _ _ _ _ _ _ false [] scs B) H) as X. unfold set_scales in *. destruct (apply_scales o scs _ _) as [[vs ds] [[]|e]]; [reflexivity|exact X].
Qed.
End Accept.

Lemma setting_refixed : forall nst st inp con f f' c, (f = None <-> f' = None) -> setting_ok nst st inp con f c -> setting_ok nst st inp con f' c.
Proof. intros nst st inp con f f' c E (H1 & H2). split; [|exact H2]. unfold known_var in *. rewrite <- E. exact H1. Qed.
Lemma scale_refixed : forall st inp con f f' c, (f = None <-> f' = None) -> scale_ok st inp con f c -> scale_ok st inp con f' c.
Proof. intros st inp con f f' c E H. unfold scale_ok, known_var in *. rewrite <- E. exact H. Qed.
Lemma call_refixed : forall P nst st inp con f f' (c : scall P), (f = None <-> f' = None) -> call_ok nst st inp con f c -> call_ok nst st inp con f' c.
Proof. intros P nst st inp con f f' [b|l|l|q|s|pts] E H; cbn in *; try (intros; eapply setting_refixed; eauto); try (intros; eapply scale_refixed; eauto); auto. destruct H. split; [rewrite <- E|]; assumption. Qed.

(** every problem that is in order can be constructed, and every call that is in order is accepted, after any history of such calls *)
Theorem C51_accepts : forall roots P (M : smodel P) cfg fixed p cs t,
  oracle_ok roots (cf_tns cfg) -> make_transcription roots (cf_tname cfg) (cf_tns cfg) = Ok t -> config_ok M cfg fixed t ->
  Forall (call_ok (cf_n cfg * (t_stages t - 1) + 1) (m_states M) (m_inputs M) (cf_con cfg) fixed) cs ->
  exists a, history roots M cfg fixed p cs = Ok a.
Proof.
  intros roots P M cfg fixed p cs t HO HTr [K1 K2 K3 K4 K5 KP K6 K7 K8 K9] HC.
  assert (exists op, make_dvo (model_names (m_states M) (m_inputs M) (m_outputs M) (cf_con cfg) (m_residuals M)) (cf_n cfg) (t_stages t) implicit_inputs (match fixed with Some _ => [] | None => ["mesh_scale"] end) = Ok op) as [op EOp].
  { destruct (mo_names _ _ K3) as (_ & ND & _). destruct (C08_accepts (model_names (m_states M) (m_inputs M) (m_outputs M) (cf_con cfg) (m_residuals M)) (cf_n cfg) (t_stages t) implicit_inputs (match fixed with Some _ => [] | None => ["mesh_scale"] end)) as (op & E & _); [| | | |exists op; exact E].
    - intros g [<-|[<-|[<-|[<-|[]]]]]; eexists; (split; [reflexivity|]); [apply (ND "states")|apply (ND "inputs")|apply (ND "states_dot")|apply (ND "con_outputs")]; cbn; tauto.
    - repeat constructor; cbn; intuition discriminate.
    - destruct fixed; repeat constructor; cbn; tauto.
    - intros g [<-|[<-|[<-|[<-|[]]]]]; reflexivity. }
  assert (exists m, make_mesh (cf_n cfg) t (cf_points cfg) = Ok m) as [m EMe].
  { destruct (cf_points cfg) as [q|] eqn:EQ; [|unfold make_mesh; cbn; eauto]. pose proof (proj1 (proj1 (C23_accepts (cf_n cfg) t [] q)) (K4 q eq_refl)) as X. unfold set_normalized_mesh in X. destruct (make_mesh (cf_n cfg) t (Some q)); [eauto|discriminate]. }
  set (o0 := {| oc_op := op; oc_tr := t; oc_mesh := m; oc_fixed := fixed; oc_nres := List.length (m_residuals M) |}).
  assert (make_ocp roots (cf_tname cfg) (cf_tns cfg) (cf_n cfg) (m_states M) (m_inputs M) (m_outputs M) (cf_con cfg) (m_residuals M) (cf_points cfg) fixed = Ok o0) as EO.
  { unfold make_ocp. assert (match fixed with Some s => negb (rltb 0 s) | None => false end = false) as ->. { destruct fixed as [s|]; [|reflexivity]. unfold rltb. destruct (Rlt_dec 0 s); [reflexivity|]. destruct (K5 s eq_refl). contradiction. } rewrite HTr. cbn [bind]. rewrite EOp. cbn [bind]. rewrite EMe. reflexivity. }
  assert (OcpSpec.built roots (cf_tname cfg) (cf_tns cfg) (cf_n cfg) (m_states M) (m_inputs M) (cf_con cfg) (cf_points cfg) fixed o0) as B by (constructor; eauto).
  set (nst := (cf_n cfg * (t_stages t - 1) + 1)%nat) in *.
  assert (exists fm, flat_mesh m = Ok fm) as [fm EF].
  { assert (set_normalized_mesh (cf_n cfg) t [] (cf_points cfg) = (m, Ok tt)) as X by (unfold set_normalized_mesh; rewrite EMe; reflexivity). destruct (C23_mesh _ _ _ _ _ _ _ _ HO HTr K1 X) as (_ & fm & _ & _ & E & _). eauto. }
  assert (exists cyc, (if cf_cyclic cfg then fmap Some (build_cyclic_vars o0 (cf_noncyclic cfg)) else Ok None) = Ok cyc /\ match cyc with Some cv => build_cyclic_vars o0 (cf_noncyclic cfg) = Ok cv /\ cyclic_pairs (m_states M) (m_inputs M) (cf_noncyclic cfg) <> [] | None => True end) as (cyc & EC & HCy).
  { destruct (cf_cyclic cfg); [|exists None; auto]. destruct (K6 eq_refl) as (C1 & C2 & C3). assert (build_cyclic_vars o0 (cf_noncyclic cfg) = Ok (map full_name (cyclic_pairs (m_states M) (m_inputs M) (cf_noncyclic cfg)))) as E.
    { apply (C28_variables _ _ _ _ _ _ _ _ _ _ (cf_noncyclic cfg) B). split; [assumption|]. split; [|reflexivity]. intros e He. destruct (C3 e He) as (g & q & E1 & E2). exists (g, q). auto. }
    rewrite E. eexists. split; [reflexivity|]. cbn beta iota. split; [reflexivity|exact C2]. }
  set (a0 := {| a_o := o0; a_con := cf_con cfg; a_pen := cf_pen cfg; a_amesh := fm; a_p := p; a_cyc := cyc; a_bd := init_bounds (oc_op o0); a_sc := init_scales o0 |}).
  assert (exists pr, raw_problem M a0 = Ok pr) as [pr ER].
  { destruct (mesh_facts _ _ _ _ _ _ _ _ _ _ fm B EF) as (_ & _ & Lfm & _).
    destruct (time_piece _ _ _ _ _ _ _ _ _ _ B) as (ob & _ & T1 & T2 & _); [intros X; destruct fixed as [s|]; [apply (K5 s eq_refl)|congruence]|].
    destruct (algebra_piece _ _ _ _ _ _ _ fm M _ B K3 Lfm (fun x => or_zero (get_mesh_scale o0 x)) p) as (c1 & A1 & A2 & A3 & _).
    destruct (continuity_piece _ _ _ _ _ _ _ _ _ _ B) as (c2 & C1 & C2 & C3 & _).
    assert (exists c3, match cyc, c3 with None, None => True | Some cv, Some c => cyclic_con o0 cv = Ok c /\ con_arg c /\ c_nin c = num_dec op | _, _ => False end) as (c3 & D).
    { destruct cyc as [cv|]; [|exists None; exact I]. destruct HCy as (G1 & G2). destruct (cyclic_piece _ _ _ _ _ _ _ _ _ _ B (cf_noncyclic cfg) cv (mo_dots _ _ K3) G1 G2) as (c & X1 & X2 & X3 & _). exists (Some c). auto. }
    assert (exists ob2, match cf_pen cfg, ob2 with None, None => True | Some w, Some q => penalty_obj o0 w = Ok q /\ obj_wf (num_dec op) q | _, _ => False end) as (ob2 & D2).
    { destruct (cf_pen cfg) as [w|]; [|exists None; exact I]. destruct (KP w eq_refl) as [W1 W2]. destruct (penalty_piece _ _ _ _ _ _ _ _ _ _ B w W1 W2) as (q & _ & Q1 & Q2 & _). exists (Some q). auto. }
    exists (assembled (num_dec op) ob ob2 c1 c2 c3 (ones (num_dec op)) (c_con c1) (c_con c2)). rewrite <- (raw_assembly_ok (num_dec op) ob ob2 c1 c2 c3 T2); [|intros q ->; destruct (cf_pen cfg); [apply D2|contradiction]|exact A2|exact C2|intros c ->; destruct cyc; [tauto|contradiction]|exact A3|exact C3].
    unfold raw_problem, raw_assembly, algebra_con. cbn [a0 a_o a_con a_pen a_amesh a_p a_cyc]. rewrite T1, C1, A1. cbn [bind]. destruct (add_objective _ "time" ob) as [p0|]; [|reflexivity]. cbn [bind].
    assert (match cf_pen cfg with Some w => bind (penalty_obj o0 w) (add_objective p0 "inputs_penalty") | None => Ok p0 end = match ob2 with None => Ok p0 | Some q => add_objective p0 "inputs_penalty" q end) as ->. { destruct (cf_pen cfg), ob2; try contradiction; [|reflexivity]. destruct D2 as (-> & _). reflexivity. }
    destruct (match ob2 with None => Ok p0 | Some q => add_objective p0 "inputs_penalty" q end) as [p1|]; [|reflexivity]. cbn [bind]. destruct cyc as [cv|], c3 as [c|]; try contradiction; [|reflexivity]. destruct D as (D & _). rewrite D. reflexivity. }
  (* one call *)
  set (okat := fun a : attrs P => exists ms, 0 < ms /\ a_o a = o_at o0 fixed ms /\ bcs_ok (cf_n cfg) (m_states M) (m_inputs M) (cf_con cfg) fixed o0 (a_bd a)).
  assert (forall a c, okat a -> call_ok nst (m_states M) (m_inputs M) (cf_con cfg) fixed c -> exists a', check (scall_step a c) = Ok a' /\ okat a') as STEP.
  { intros a c (ms & Hms & Ea & Hb) Hc. pose proof (op_at o0 fixed ms) as (Q1 & Q2 & Q3 & Q4). 
    destruct c as [b|l|l|q|s|ps]; cbn [scall_step call_ok] in *; try contradiction.
    - destruct (update_bounds_ok _ _ _ _ _ _ _ _ _ _ B b (a_bd a) Hb Hc) as (s' & E & H'). rewrite Ea, Q1, E. eexists. split; [reflexivity|]. exists ms. auto.
    - destruct (update_bcs_ok _ _ _ _ _ _ _ _ _ _ B l (a_bd a) Hb Hc) as (s' & E & H'). rewrite Ea, Q1, E. eexists. split; [reflexivity|]. exists ms. auto.
    - rewrite Ea, scales_at. unfold check. cbn [snd]. rewrite (set_scales_accepts _ _ _ _ _ _ _ _ _ _ B _ _ Hc). eexists. split; [reflexivity|]. exists ms. auto.
    - eexists. split; [reflexivity|]. exists ms. auto.
    - destruct Hc as [NF Hs]. rewrite Ea. unfold o_at. destruct fixed as [f|] eqn:EFx; [|congruence]. eexists. split; [reflexivity|]. exists s. split; [assumption|]. split; [cbn [fst with_o a_o]; unfold o_at, with_fixed; rewrite ?EFx; reflexivity|]. exact Hb. }
  assert (forall cs a, okat a -> Forall (call_ok nst (m_states M) (m_inputs M) (cf_con cfg) fixed) cs -> exists a', calls a cs = Ok a') as CALLS.
  { clear -STEP. induction cs as [|c cs IH]; intros a Ha HF; [eexists; reflexivity|]. apply Forall_cons_iff in HF. destruct HF as [H1 H2]. destruct (STEP a c Ha H1) as (a1 & E1 & H1'). cbn [calls]. rewrite E1. cbn [bind]. now apply IH. }
  assert (okat a0) as OK0.
  { exists (match fixed with Some s => s | None => 1 end). split; [destruct fixed as [s|]; [apply (K5 s eq_refl)|lra]|]. split; [unfold o_at; destruct fixed; reflexivity|]. intros c []. }
  destruct (STEP a0 (SBounds (cf_bounds cfg)) OK0 K7) as (a1 & E1 & OK1). destruct (STEP a1 (SBCs (cf_bcs cfg)) OK1 K8) as (a2 & E2 & OK2). destruct (STEP a2 (SScales (cf_scales cfg)) OK2 K9) as (a3 & E3 & OK3).
  destruct (CALLS cs a3 OK3 HC) as (a4 & E4). exists a4. unfold history, construct. rewrite EO. cbn [bind]. change (oc_mesh o0) with m. rewrite EF. cbn [bind]. rewrite EC. cbn [bind]. fold a0. rewrite ER. cbn [bind]. rewrite E1. cbn [bind]. rewrite E2. cbn [bind]. rewrite E3. cbn [bind]. exact E4.
Qed.
Print Assumptions C51_accepts.
