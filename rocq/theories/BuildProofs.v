(** Lemmas for whole problems, part 1: what a history of successful calls leaves behind. *)
From Verif Require Import Base RBase TreeModel UtilsModel IoModel CollocModel CollocProps MeshModel OcpModel OcpSpec NlpModel AlgModel ConvModel CyclicModel ObjModel BoundModel BoundSpec ScaleModel ScaleSpec BuildModel BuildSpec.

Lemma bind_ok : forall A B (r : result A) (f : A -> result B) b, bind r f = Ok b -> exists a, r = Ok a /\ f a = Ok b.
Proof. intros A B [a|e] f b H; [eauto|discriminate]. Qed.
Lemma check_ok_inv : forall P (r : attrs P * result unit) a, check r = Ok a -> a = fst r /\ snd r = Ok tt.
Proof. intros P [b [[]|e]] a H; unfold check in H; cbn in *; [injection H as <-; auto|discriminate]. Qed.

Lemma all_succeed_app : forall op ops s s1, all_succeed op s (ops ++ s1) <-> all_succeed op s ops /\ all_succeed op (fold_left (fun s o => fst (bstep op s o)) ops s) s1.
Proof. intros op ops; induction ops as [|o ops IH]; intros s s1; cbn [app all_succeed fold_left]; [tauto|]. rewrite IH. tauto. Qed.
Lemma brun_app : forall op a b, brun op (a ++ b) = fold_left (fun s o => fst (bstep op s o)) b (brun op a).
Proof. intros. unfold brun. now rewrite fold_left_app. Qed.
Lemma all_bounds_app : forall a b, all_bounds (a ++ b) = all_bounds a ++ all_bounds b.
Proof. intros. unfold all_bounds. now rewrite flat_map_app. Qed.
Lemma all_bcs_app : forall a b, all_bcs (a ++ b) = all_bcs a ++ all_bcs b.
Proof. intros. unfold all_bcs. now rewrite flat_map_app. Qed.
Lemma srun_app : forall o b h scs, srun o b (h ++ [scs]) = fst (set_scales o b (srun o b h) scs).
Proof. intros. unfold srun. now rewrite fold_left_app. Qed.
Lemma set_scales_fixed : forall o c b s scs, set_scales (with_fixed o c) b s scs = set_scales o b s scs.
Proof. intros [op t m f k] c b s scs. unfold with_fixed. cbn [oc_op oc_tr oc_mesh oc_nres].
  assert (forall scs vs ds, apply_scales {| oc_op := op; oc_tr := t; oc_mesh := m; oc_fixed := Some c; oc_nres := k |} scs vs ds = apply_scales {| oc_op := op; oc_tr := t; oc_mesh := m; oc_fixed := f; oc_nres := k |} scs vs ds) as E.
  { induction scs0 as [|sc r IH]; intros vs ds; [reflexivity|]. cbn [apply_scales oc_op]. destruct (dget (sc_g sc) vs); [|reflexivity]. destruct (index_in_group op (sc_g sc) (sc_n sc)); [|reflexivity]. destruct (index_all op (sc_g sc) (sc_n sc)); [|reflexivity]. apply IH. }
  unfold set_scales. rewrite E. reflexivity.
Qed.

Section Hist.
Context {P : Type}.
Variables (o0 : ocp) (fixed : option R) (con : list string) (fm : list R) (cyc : option (list string)).
Hypothesis HF : oc_fixed o0 = fixed.
Definition o_at (ms : R) : ocp := match fixed with None => o0 | Some _ => with_fixed o0 ms end.
Lemma op_at : forall ms, oc_op (o_at ms) = oc_op o0 /\ oc_mesh (o_at ms) = oc_mesh o0 /\ oc_tr (o_at ms) = oc_tr o0 /\ oc_nres (o_at ms) = oc_nres o0.
Proof using. clear HF. intro ms. unfold o_at. destruct fixed; auto. Qed.
Lemma scales_at : forall ms b s scs, set_scales (o_at ms) b s scs = set_scales o0 b s scs.
Proof using. clear HF. intros. unfold o_at. destruct fixed; [apply set_scales_fixed|reflexivity]. Qed.

Record inv (a : attrs P) (p : P) (ms : R) (bs : list bound_config) (bc : list bc_config) (scs : option (list scale_config)) : Prop := {
  iv_o : a_o a = o_at ms; iv_con : a_con a = con; iv_mesh : a_amesh a = fm; iv_p : a_p a = p; iv_cyc : a_cyc a = cyc;
  iv_bd : exists ops, all_succeed (oc_op o0) (init_bounds (oc_op o0)) ops /\ no_direct ops /\ a_bd a = brun (oc_op o0) ops /\ all_bounds ops = map of_bound bs /\ all_bcs ops = map of_bc bc;
  iv_sc : exists h, match scs with None => a_sc a = srun o0 false h | Some l => snd (set_scales o0 false (srun o0 false h) l) = Ok tt /\ a_sc a = fst (set_scales o0 false (srun o0 false h) l) end }.

Lemma bd_step : forall ops o bs bc, all_succeed (oc_op o0) (init_bounds (oc_op o0)) ops -> no_direct ops -> all_bounds ops = map of_bound bs -> all_bcs ops = map of_bc bc ->
  match o with OpSet _ _ _ _ => False | _ => True end -> snd (bstep (oc_op o0) (brun (oc_op o0) ops) o) = Ok tt ->
  exists ops', all_succeed (oc_op o0) (init_bounds (oc_op o0)) ops' /\ no_direct ops' /\ fst (bstep (oc_op o0) (brun (oc_op o0) ops) o) = brun (oc_op o0) ops' /\
    all_bounds ops' = map of_bound (bs ++ match o with OpBounds b => b | _ => [] end) /\ all_bcs ops' = map of_bc (bc ++ match o with OpBCs l => l | _ => [] end).
Proof using.
  intros ops o bs bc HA HD E1 E2 Ho Hs. exists (ops ++ [o]). split; [apply all_succeed_app; split; [assumption|]; cbn [all_succeed]; split; [exact Hs|exact I]|].
  split; [intros x Hx; apply in_app_iff in Hx; destruct Hx as [Hx|[<-|[]]]; [now apply HD|exact Ho]|]. split; [now rewrite brun_app|].
  rewrite all_bounds_app, all_bcs_app, E1, E2, !map_app. destruct o as [b|l|]; [| |contradiction]; cbn; rewrite ?app_nil_r; auto.
Qed.

Lemma step_inv : forall a a' p ms bs bc scs c, inv a p ms bs bc scs -> plain c -> scall_step a c = (a', Ok tt) ->
  inv a' (match c with SParams q => q | _ => p end) (match c with SMeshScale s => s | _ => ms end) (bs ++ match c with SBounds b => b | _ => [] end)
    (bc ++ match c with SBCs l => l | _ => [] end) (match c with SScales l => Some l | _ => scs end).
Proof using HF.
  intros a a' p ms bs bc scs c [Io Ic Im Ip Iy (ops & B1 & B2 & B3 & B4 & B5) (h & Is)] Hp E. pose proof (op_at ms) as (O1 & O2 & O3 & O4).
  destruct c as [b|l|l|q|s|pts]; cbn [scall_step] in E; try contradiction.
  - injection E as <- E. rewrite Io, O1, B3 in *. destruct (bd_step ops (OpBounds b) bs bc B1 B2 B4 B5 I E) as (ops' & X1 & X2 & X3 & X4 & X5).
    split; cbn [with_bd a_o a_con a_amesh a_p a_cyc a_bd a_sc]; auto; [exists ops'; auto|exists h; exact Is].
  - injection E as <- E. rewrite Io, O1, B3 in *. destruct (bd_step ops (OpBCs l) bs bc B1 B2 B4 B5 I E) as (ops' & X1 & X2 & X3 & X4 & X5).
    split; cbn [with_bd a_o a_con a_amesh a_p a_cyc a_bd a_sc]; auto; [exists ops'; auto|exists h; exact Is].
  - injection E as <- E. rewrite Io, scales_at in *. split; cbn [with_sc a_o a_con a_amesh a_p a_cyc a_bd a_sc]; auto; [exists ops; rewrite !app_nil_r; auto|].
    destruct scs as [l0|].
    + destruct Is as [I1 I2]. exists (h ++ [l0]). rewrite srun_app, <- I2. auto.
    + exists h. rewrite <- Is. auto.
  - injection E as <-. split; cbn [with_p a_o a_con a_amesh a_p a_cyc a_bd a_sc]; auto; [exists ops; rewrite !app_nil_r; auto|exists h; exact Is].
  - rewrite Io in E. unfold o_at in E, O1. unfold o_at in Io. destruct fixed as [f|] eqn:EF.
    + cbn [with_fixed oc_fixed oc_op oc_tr oc_mesh oc_nres] in E. injection E as <-. split; cbn [with_o a_o a_con a_amesh a_p a_cyc a_bd a_sc]; auto; [unfold o_at; now rewrite EF|exists ops; rewrite !app_nil_r; auto|exists h; exact Is].
    + rewrite HF in E. discriminate.
Qed.
Lemma calls_inv : forall cs a a' p ms bs bc scs, inv a p ms bs bc (Some scs) -> Forall plain cs -> calls a cs = Ok a' ->
  inv a' (params_asked p cs) (mesh_scale_asked ms cs) (bs ++ flat_map (fun c => match c with SBounds b => b | _ => [] end) cs) (bc ++ flat_map (fun c => match c with SBCs l => l | _ => [] end) cs) (Some (scales_asked scs cs)).
Proof using HF.
  intros cs; induction cs as [|c cs IH]; intros a a' p ms bs bc scs HI HP E; cbn [calls] in E.
  - injection E as <-. cbn. now rewrite !app_nil_r.
  - apply bind_ok in E. destruct E as (a1 & E1 & E2). apply check_ok_inv in E1. destruct E1 as [-> E1]. apply Forall_cons_iff in HP. destruct HP as [HP1 HP2].
    pose proof (step_inv a (fst (scall_step a c)) p ms bs bc (Some scs) c HI HP1) as X. rewrite <- E1 in X. specialize (X (surjective_pairing _)).
    cbn [flat_map]. rewrite !app_assoc. unfold params_asked, mesh_scale_asked, scales_asked, latest. cbn [fold_left].
    destruct c as [b|l|l|q|s|pts]; apply (IH _ _ _ _ _ _ _ X HP2 E2).
Qed.
End Hist.

Lemma make_ocp_fixed : forall roots tn tns n st inp out con res pts fixed o, make_ocp roots tn tns n st inp out con res pts fixed = Ok o -> oc_fixed o = fixed.
Proof.
  intros until o. intro H. unfold make_ocp in H. destruct (match fixed with Some s => negb (rltb 0 s) | None => false end); [discriminate|].
  apply bind_ok in H. destruct H as (t & _ & H). apply bind_ok in H. destruct H as (op & _ & H). apply bind_ok in H. destruct H as (m & _ & H). now injection H as <-.
Qed.
Lemma make_ocp_refixed : forall roots tn tns n st inp out con res pts s s' o, make_ocp roots tn tns n st inp out con res pts (Some s) = Ok o -> 0 < s' ->
  make_ocp roots tn tns n st inp out con res pts (Some s') = Ok (with_fixed o s').
Proof.
  intros until o. intros H Hs. unfold make_ocp in *. destruct (negb (rltb 0 s)); [discriminate|]. unfold rltb. destruct (Rlt_dec 0 s') as [_|C]; [|contradiction]. cbn [negb].
  apply bind_ok in H. destruct H as (t & -> & H). cbn [bind]. apply bind_ok in H. destruct H as (op & -> & H). cbn [bind]. apply bind_ok in H. destruct H as (m & -> & H). cbn [bind]. now injection H as <-.
Qed.
Lemma latest_pos : forall P (cs : list (scall P)) s, 0 < s -> Forall plain cs -> 0 < mesh_scale_asked s cs.
Proof.
  intros P cs; induction cs as [|c cs IH]; intros s Hs H; [exact Hs|]. apply Forall_cons_iff in H. destruct H as [H1 H2]. unfold mesh_scale_asked, latest. cbn [fold_left]. destruct c; apply IH; auto.
Qed.

Lemma step_pen : forall P (a : attrs P) c, a_pen (fst (scall_step a c)) = a_pen a.
Proof. intros P a [b|l|l|q|s|ps]; cbn [scall_step]; try reflexivity. destruct (oc_fixed (a_o a)); reflexivity. Qed.
Lemma check_pen : forall P (a a' : attrs P) c, check (scall_step a c) = Ok a' -> a_pen a' = a_pen a.
Proof. intros P a a' c H. apply check_ok_inv in H. destruct H as [-> _]. apply step_pen. Qed.
Lemma history_pen : forall roots P (M : smodel P) cfg fixed p cs a, history roots M cfg fixed p cs = Ok a -> a_pen a = cf_pen cfg.
Proof.
  intros roots P M cfg fixed p cs a H. unfold history in H. apply bind_ok in H. destruct H as (a3 & H & HC).
  assert (a_pen a3 = cf_pen cfg) as E3.
  { unfold construct in H. apply bind_ok in H. destruct H as (o0 & _ & H). apply bind_ok in H. destruct H as (fm & _ & H). apply bind_ok in H. destruct H as (cyc & _ & H). apply bind_ok in H. destruct H as (pr & _ & H).
    apply bind_ok in H. destruct H as (a1 & E1 & H). apply bind_ok in H. destruct H as (a2 & E2 & H). apply check_pen in E1, E2, H. rewrite H, E2, E1. reflexivity. }
  clear H. revert a3 E3 HC. clear. induction cs as [|c cs IH]; intros a3 E HC; [now injection HC as <-|]. cbn [calls] in HC. apply bind_ok in HC. destruct HC as (a4 & E4 & HC). apply check_pen in E4. apply (IH a4); [congruence|exact HC].
Qed.

(** the whole history *)
Lemma history_inv : forall roots P (M : smodel P) cfg fixed p cs a, history roots M cfg fixed p cs = Ok a -> Forall plain cs ->
  exists o0 fm cyc a0, make_ocp roots (cf_tname cfg) (cf_tns cfg) (cf_n cfg) (m_states M) (m_inputs M) (m_outputs M) (cf_con cfg) (m_residuals M) (cf_points cfg) fixed = Ok o0 /\
    flat_mesh (oc_mesh o0) = Ok fm /\ (if cf_cyclic cfg then exists cv, build_cyclic_vars o0 (cf_noncyclic cfg) = Ok cv /\ cyc = Some cv else cyc = None) /\
    a_o a0 = o0 /\ a_cyc a0 = cyc /\ (exists pr, raw_problem M a0 = Ok pr) /\
    inv o0 fixed (cf_con cfg) fm cyc a (params_asked p cs) (mesh_scale_asked (match fixed with Some s => s | None => 1 end) cs)
      (cf_bounds cfg ++ flat_map (fun c => match c with SBounds b => b | _ => [] end) cs) (cf_bcs cfg ++ flat_map (fun c => match c with SBCs l => l | _ => [] end) cs) (Some (scales_asked (cf_scales cfg) cs)).
Proof.
  intros roots P M cfg fixed p cs a H HP. unfold history in H. apply bind_ok in H. destruct H as (a3 & H & HC). unfold construct in H.
  apply bind_ok in H. destruct H as (o0 & Eo & H). apply bind_ok in H. destruct H as (fm & Ef & H). apply bind_ok in H. destruct H as (cyc & Ec & H).
  set (a0 := {| a_o := o0; a_con := cf_con cfg; a_pen := cf_pen cfg; a_amesh := fm; a_p := p; a_cyc := cyc; a_bd := init_bounds (oc_op o0); a_sc := init_scales o0 |}) in H.
  apply bind_ok in H. destruct H as (pr & Er & H). apply bind_ok in H. destruct H as (a1 & E1 & H). apply bind_ok in H. destruct H as (a2 & E2 & E3).
  pose proof (make_ocp_fixed _ _ _ _ _ _ _ _ _ _ _ _ Eo) as HF.
  exists o0, fm, cyc, a0. split; [assumption|]. split; [assumption|]. split.
  { destruct (cf_cyclic cfg); [|now injection Ec as <-]. destruct (build_cyclic_vars o0 (cf_noncyclic cfg)) as [cv|]; [|discriminate]. injection Ec as <-. exists cv. auto. }
  split; [reflexivity|]. split; [reflexivity|]. split; [eauto|].
  set (ms0 := match fixed with Some s => s | None => 1 end).
  assert (inv o0 fixed (cf_con cfg) fm cyc a0 p ms0 [] [] None) as I0.
  { split; cbn [a0 a_o a_con a_amesh a_p a_cyc a_bd a_sc]; auto.
    - unfold o_at. destruct fixed as [s|] eqn:EF; [|reflexivity]. destruct o0 as [op t m f k]. cbn [oc_fixed] in HF. subst f. reflexivity.
    - exists []. repeat split. intros x [].
    - exists []. reflexivity. }
  apply check_ok_inv in E1. destruct E1 as [-> E1]. apply check_ok_inv in E2. destruct E2 as [-> E2]. apply check_ok_inv in E3. destruct E3 as [-> E3].
  assert (forall (b : attrs P) (c : scall P), snd (scall_step b c) = Ok tt -> scall_step b c = (fst (scall_step b c), Ok tt)) as SP by (intros b c <-; apply surjective_pairing).
  pose proof (step_inv _ _ _ _ _ HF _ _ _ _ _ _ _ (SBounds (cf_bounds cfg)) I0 I (SP _ _ E1)) as I1.
  pose proof (step_inv _ _ _ _ _ HF _ _ _ _ _ _ _ (SBCs (cf_bcs cfg)) I1 I (SP _ _ E2)) as I2.
  pose proof (step_inv _ _ _ _ _ HF _ _ _ _ _ _ _ (SScales (cf_scales cfg)) I2 I (SP _ _ E3)) as I3. cbn [app] in I3. rewrite ?app_nil_r in I3. cbn [app] in I3.
  exact (calls_inv _ _ _ _ _ HF cs _ _ _ _ _ _ _ I3 HP HC).
Qed.
