(** C29 applied: the algebra that the code builds (the model residual of C34 convolved over the stages, C35) meets the hypotheses of CondProps. *)
From Verif Require Import Base RBase TreeModel UtilsModel UtilsProofs UtilsProofs2 CollocModel CollocProofs CollocProofs2 CollocProps IoModel IoProofs IoProps AlgModel AlgSpec AlgProofs AlgProps ConvModel ConvSpec
  NlpModel NlpProofs NlpProofs2 MeshModel MeshProofs MeshProps OcpModel OcpProofs OcpProofs2 OcpProofs3 OcpSpec OcpProps ObjProofs ConvProps CondModel CondSpec CondProofs CondProofs2 CondProofs3 CondProofs4 CondProps.

(** scaled_mesh_ocp.py:546-559: the function the convolution uses for the mesh scale *)
Definition scale_fn_of (o : ocp) (x : list R) : R := match get_mesh_scale o x with Ok s => s | Raise _ => 0 end.
(** models/base.py:508-530 over the rows of the batch (C36): states_dot *)
Definition batched_dots (nm : string -> list string) (forward : dict R -> dict R -> R -> result (dict R * dict R)) (X U : list (list R)) (mesh : list R) : list (list R) :=
  map (fun k => match forward_with_arrays nm forward (nth k X []) (nth k U []) (vget k mesh) with Ok (sd, _, _, _) => sd | Raise _ => [] end) (seq 0 (List.length X)).

Section I.
Context {P : Type}.
Variables (o : ocp) (nm : string -> list string) (forward : P -> dict R -> dict R -> R -> result (dict R * dict R)) (u : unitp P) (nmesh : list R) (p : P) (alg : bcon).
Hypothesis K : ocp_ok o.
Hypothesis Hn : (1 <= num_intervals o)%nat.
Hypothesis Hd : (1 <= num_states o)%nat.
Hypothesis HN : names_ok nm.
Hypothesis Gs : gnames_of (oc_op o) "states" = nm "states".
Hypothesis Gi : gnames_of (oc_op o) "inputs" = nm "inputs".
Hypothesis Gc : gnames_of (oc_op o) "con_outputs" = nm "con_outputs".
Hypothesis HF : forall m, forward_ok nm (forward p) m.
Hypothesis US : unit_shapes u.
Hypothesis Un : u_nin u = num_implicit_var nm.
Hypothesis Uc : u_ncon u = num_implicit_res nm.
Hypothesis Uf : forall x m, List.length x = u_nin u -> u_f u x m p = residual nm (forward p) m x.
Hypothesis Lm : List.length nmesh = num_stages (oc_op o).
Hypothesis HC : make_conv u (oc_op o) nmesh (scale_fn_of o) p = Ok alg.
Let op := oc_op o.
Let nimp := num_implicit_res nm.
Let w k x := stage_window op k x.
Let res k x := residual nm (forward p) (vget k nmesh * scale_fn_of o x) (w k x).

Lemma in_nvs : num_var_stage op = num_implicit_var nm.
Proof using K Hn Hd HN Gs Gi Gc. unfold op. rewrite (nvs_eq o K Hn Hd), (nvar nm HN). unfold num_states, group_size. now rewrite Gs, Gi, Gc. Qed.
Lemma in_d : num_states o = List.length (nm "states").
Proof using Gs. unfold num_states, group_size. now rewrite Gs. Qed.
Lemma in_offD : offD o = (List.length (nm "states") + List.length (nm "inputs"))%nat.
Proof using Gs Gi. unfold offD. rewrite in_d. unfold group_size. now rewrite Gi. Qed.
Lemma in_w : u_nin u = num_var_stage op.
Proof using K Hn Hd HN Gs Gi Gc Un. now rewrite in_nvs. Qed.
Lemma in_pos : (0 < num_var_stage op)%nat.
Proof using K Hn Hd. exact (NVS o K Hn Hd). Qed.
Lemma w_len : forall k x, List.length x = num_dec op -> (k < num_stages op)%nat -> List.length (w k x) = num_implicit_var nm.
Proof using K Hn Hd HN Gs Gi Gc. intros. unfold w. rewrite win_len by assumption. apply in_nvs. Qed.

Lemma alg_facts : c_nin alg = num_dec op /\ c_ncon alg = (num_stages op * nimp)%nat /\
  forall x, List.length x = num_dec op -> con_constraints alg x = concat (map (fun k => res k x) (seq 0 (num_stages op))).
Proof using K Hn Hd HN Gs Gi Gc HF US Un Uc Uf Lm HC.
  destruct (conv_wf P u op nmesh (scale_fn_of o) p in_w in_pos Lm US) as (js & hs & c & ES & EC & W & E1 & E2 & E3 & E4 & E5 & E6 & E7 & E8 & E9).
  fold op in HC. rewrite HC in EC. injection EC as <-. split; [assumption|]. split; [rewrite E6, Uc; reflexivity|]. intros x L.
  assert (HC' := HC). unfold make_conv in HC'. rewrite ES in HC'. cbn [bind] in HC'. destruct (make_con_ok _ _ _ _ _ _ _ _ HC' W) as (ER & _).
  assert (c_in alg = ones (num_dec op) /\ c_con alg = ones (num_stages op * u_ncon u)) as [I1 I2] by (rewrite ER; split; reflexivity).
  unfold con_constraints. rewrite I1, I2, E7.
  assert (forall n v, List.length v = n -> vmul v (ones n) = v) as M1.
  { intros n0 v Lv. apply vec_ext; [unfold vmul; rewrite map2_length; [now rewrite Lv|unfold ones; now rewrite repeat_length]|]. intros j Hj. unfold vmul in Hj. rewrite map2_length in Hj by (unfold ones; now rewrite repeat_length).
    unfold vget, vmul. rewrite (map2_nth _ _ _ _ _ _ _ 0 0 0) by (unfold ones; rewrite ?repeat_length; lia). unfold ones. replace (nth j (repeat 1 n0) 0) with 1 by (symmetry; clear -Hj Lv; subst n0; revert j Hj; induction v as [|a v IH]; intros j Hj; simpl in *; [lia|destruct j; [reflexivity|apply IH; lia]]). ring. }
  assert (forall n v, List.length v = n -> vdiv v (ones n) = v) as M2.
  { intros n0 v Lv. apply vec_ext; [unfold vdiv; rewrite map2_length; [now rewrite Lv|unfold ones; now rewrite repeat_length]|]. intros j Hj. unfold vdiv in Hj. rewrite map2_length in Hj by (unfold ones; now rewrite repeat_length).
    unfold vget, vdiv. rewrite (map2_nth _ _ _ _ _ _ _ 0 0 0) by (unfold ones; rewrite ?repeat_length; lia). unfold ones. replace (nth j (repeat 1 n0) 0) with 1 by (symmetry; clear -Hj Lv; subst n0; revert j Hj; induction v as [|a v IH]; intros j Hj; simpl in *; [lia|destruct j; [reflexivity|apply IH; lia]]). field. }
  rewrite M1 by assumption. rewrite (constraints_eq u op nmesh (scale_fn_of o) p in_w in_pos Lm x L). cbn [ok_or_nil].
  assert (map (fun k => u_f u (stage_window op k x) (mp nmesh (scale_fn_of o) k x) p) (seq 0 (num_stages op)) = map (fun k => res k x) (seq 0 (num_stages op))) as E.
  { apply map_ext_in. intros k Hk. apply in_seq in Hk. rewrite Uf by (rewrite in_w; apply win_len; [assumption|lia]). reflexivity. }
  rewrite E. apply M2. rewrite <- E. rewrite (length_concat_const _ (u_ncon u)), map_length, seq_length; [reflexivity|]. apply Forall_forall. intros v Hv. apply in_map_iff in Hv. destruct Hv as (k & <- & Hk). apply in_seq in Hk.
  destruct US as (S1 & _). apply S1. rewrite in_w. apply win_len; [assumption|lia].
Qed.
Lemma res_len : forall k x, List.length x = num_dec op -> (k < num_stages op)%nat -> List.length (res k x) = nimp.
Proof using K Hn Hd HN Gs Gi Gc HF US Un Uc Uf.
  intros k x L Hk. unfold res. rewrite <- Uf by (rewrite Un; now apply w_len). destruct US as (S1 & _). rewrite S1 by (rewrite Un; now apply w_len). exact Uc.
Qed.
Lemma alg_vget : forall x k c, List.length x = num_dec op -> (k < num_stages op)%nat -> (c < nimp)%nat -> vget (k * nimp + c) (con_constraints alg x) = vget c (res k x).
Proof using K Hn Hd HN Gs Gi Gc HF US Un Uc Uf Lm HC.
  intros x k c L Hk Hc. destruct alg_facts as (_ & _ & E). rewrite E by assumption. unfold vget.
  rewrite (nth_concat_const R nimp); [|apply Forall_map, Forall_forall; intros z Hz; apply in_seq in Hz; apply res_len; [assumption|lia]|now rewrite map_length, seq_length|assumption]. now rewrite nth_comp.
Qed.
Lemma alg_len : forall x, List.length x = num_dec op -> List.length (con_constraints alg x) = (num_stages op * nimp)%nat.
Proof using K Hn Hd HN Gs Gi Gc HF US Un Uc Uf Lm HC.
  intros x L. destruct alg_facts as (_ & _ & E). rewrite E by assumption. rewrite (length_concat_const _ nimp), map_length, seq_length; [reflexivity|].
  apply Forall_map, Forall_forall. intros z Hz. apply in_seq in Hz. apply res_len; [assumption|lia].
Qed.
(** a derivative variable of stage k moves only its own row of its own stage *)
Lemma res_upd : forall x k c v k' r, List.length x = num_dec op -> (k < num_stages op)%nat -> (c < num_states o)%nat -> (k' < num_stages op)%nat -> (r < nimp)%nat ->
  vget r (res k' (upd (dt o k c) v x)) = if Nat.eqb k' k && Nat.eqb r c then vget r (res k' x) + vget (dt o k c) x - v else vget r (res k' x).
Proof using K Hn Hd HN Gs Gi Gc HF US Un Uc Uf Lm HC.
  intros x k c v k' r L Hk Hc Hk' Hr. pose proof (offd_lt o K Hn Hd c Hc) as Ho. fold op in Ho.
  assert (scale_fn_of o (upd (dt o k c) v x) = scale_fn_of o x) as ES.
  { unfold scale_fn_of. rewrite !(scale_ok o K Hn Hd) by (rewrite ?upd_length; exact L). unfold scl. destruct (oc_fixed o); [reflexivity|]. rewrite vget_upd_other; [reflexivity|]. pose proof (dt_lt_isc o K Hn Hd k c Hk Hc). lia. }
  unfold res. rewrite ES. destruct (Nat.eqb_spec k' k) as [->|Hne]; cbn [andb].
  - unfold w, stage_window. fold op. assert (dt o k c = (k * num_var_stage op + (offD o + c))%nat) as ED by (unfold dt; fold op; lia). rewrite ED. rewrite window_upd_in by lia. replace (k * num_var_stage op + (offD o + c) - k * num_var_stage op)%nat with (offD o + c)%nat by lia.
    pose proof (w_len k x L Hk) as WL. unfold w, stage_window in WL. set (W := firstn _ _) in *. set (mm := vget k nmesh * scale_fn_of o x) in *.
    rewrite !(residual_comp nm (forward p) mm HN (HF mm)) by (rewrite ?upd_length; assumption). rewrite in_offD. rewrite !part_upd; [|assumption|unfold AlgProofs.off; cbn; lia|assumption|unfold AlgProofs.off; cbn; lia].
    rewrite lin_iff. rewrite in_d in Hc. destruct (Nat.eqb_spec r c) as [->|Hrc].
    + destruct (Nat.ltb_spec c (List.length (nm "states") + List.length (nm "con_outputs"))); [|lia]. rewrite vget_upd_same by (rewrite WL, (nvar nm HN); lia).
      assert (vget (List.length (nm "states") + List.length (nm "inputs") + c) W = vget (k * num_var_stage op + (List.length (nm "states") + List.length (nm "inputs") + c)) x) as EW.
      { unfold W. rewrite firstn_vget by (rewrite in_offD in Ho; exact Ho). now rewrite skipn_vget. }
      rewrite EW. ring.
    + destruct (Nat.ltb_spec r (List.length (nm "states") + List.length (nm "con_outputs"))); [|reflexivity]. rewrite vget_upd_other by lia. reflexivity.
  - f_equal. f_equal. unfold w, stage_window. fold op. apply window_upd_out. unfold dt. fold op. destruct (Nat.lt_ge_cases k k'); [left|right]; nia.
Qed.
Lemma inst_explicit : explicit_algebra o alg nimp.
Proof using K Hn Hd HN Gs Gi Gc HF US Un Uc Uf Lm HC.
  destruct alg_facts as (E1 & E2 & _). assert (num_states o <= nimp)%nat as Hle by (unfold nimp, num_implicit_res; rewrite in_d; lia). constructor; try assumption.
  - exact alg_len.
  - intros x k c j v L Hk Hj. apply (dot_pos_iff o K Hn Hd) in Hj; [|assumption]. destruct Hj as [Hc ->]. rewrite !alg_vget by (rewrite ?upd_length; try assumption; lia). rewrite res_upd by (try assumption; lia). now rewrite !Nat.eqb_refl.
  - intros x k c j v r L Hk Hj Hne. apply (dot_pos_iff o K Hn Hd) in Hj; [|assumption]. destruct Hj as [Hc ->]. destruct (Nat.lt_ge_cases r (num_stages op * nimp)) as [Hr|Hr].
    + assert (0 < nimp)%nat by nia. assert (r = r / nimp * nimp + r mod nimp)%nat as Er by (pose proof (Nat.div_mod r nimp ltac:(lia)); lia).
      assert (r / nimp < num_stages op)%nat as Hq by (apply Nat.div_lt_upper_bound; lia). assert (r mod nimp < nimp)%nat as Hm by (apply Nat.mod_upper_bound; lia). rewrite Er. rewrite !alg_vget by (rewrite ?upd_length; assumption).
      rewrite res_upd by assumption. destruct (Nat.eqb_spec (r / nimp) k) as [E|]; [|reflexivity]. destruct (Nat.eqb_spec (r mod nimp) c) as [E'|]; [|reflexivity]. exfalso. apply Hne. rewrite Er, E, E'. reflexivity.
    + unfold vget. rewrite !nth_overflow; [reflexivity|rewrite alg_len by assumption; assumption|rewrite alg_len by (rewrite upd_length; assumption); assumption].
Qed.
Lemma inst_exact : unit_jacobian u -> unit_hessian (fun _ _ => True) u -> ConvSpec.mesh_free u (scale_fn_of o) -> exact_algebra o alg.
Proof using K Hn Hd HN Gs Gi Gc HF US Un Uc Uf Lm HC.
  intros UJ UH MF. destruct (C35_derivatives P u op nmesh (scale_fn_of o) p (fun _ _ => True) in_w in_pos Lm US MF UJ (fun _ _ _ _ => I) UH) as (c & EC & E1 & E2 & _ & _ & D).
  fold op in HC. rewrite HC in EC. injection EC as <-. destruct (D [] alg (Forall_nil _) eq_refl) as [DJ DH].
  { cbn. unfold ones. apply Forall_forall. intros v Hv. apply repeat_spec in Hv. subst. lra. }
  { cbn. unfold ones. apply Forall_forall. intros v Hv. apply repeat_spec in Hv. subst. lra. }
  destruct (conv_wf P u op nmesh (scale_fn_of o) p in_w in_pos Lm US) as (js & hs & c & ES & EC & W & F1 & F2 & F3 & F4 & F5 & F6 & F7 & F8 & F9). rewrite HC in EC. injection EC as <-.
  constructor.
  - rewrite E1 in DJ. exact DJ.
  - intros lam Ll. rewrite E1 in DH. destruct (DH lam Ll) as (g & G1 & G2). exists g. split; [exact G1|]. intros; now apply G2.
  - exact (wf_h _ W).
  - intros x lam Lx Ll. assert (HC' := HC). unfold make_conv in HC'. rewrite ES in HC'. cbn [bind] in HC'. destruct (make_con_ok _ _ _ _ _ _ _ _ HC' W) as (ER & _).
    assert (c_in alg = ones (num_dec op) /\ c_con alg = ones (num_stages op * u_ncon u)) as [I1 I2] by (rewrite ER; split; reflexivity).
    assert (List.length (c_hs alg) = List.length (c_hr alg)) as LH by (rewrite ER; cbn [c_hs c_hr rescaled]; apply map2_length, (wf_h _ W)).
    unfold con_hessian. rewrite I1, I2. unfold vdiv at 1.
    assert (List.length (c_h alg (vmul x (ones (num_dec op))) (vdiv lam (ones (num_stages op * u_ncon u)))) = List.length (c_hr alg)) as L1.
    { apply (wf_hv _ W); [rewrite F5|rewrite F6].
      - unfold vmul. rewrite map2_length; [exact Lx|]. unfold ones. rewrite repeat_length. exact Lx.
      - unfold vdiv. rewrite F6 in Ll. rewrite map2_length; [exact Ll|]. unfold ones. rewrite repeat_length. exact Ll. }
    rewrite map2_length by congruence. exact L1.
Qed.
(** the arrays of unflatten are the parts of the stage windows *)
Lemma rows_part : forall (x : list R) v X g gi k, In g flat_groups -> List.length x = num_dec op -> unflatten_var op x = Ok v -> dget g v = Some (FArr X) -> nth_error (sgroups op) gi = Some g -> g <> "global" ->
  gnames_of op g = nm g -> off_of op gi = AlgProofs.off nm g -> (AlgProofs.off nm g + List.length (nm g) <= num_var_stage op)%nat -> (k < num_stages op)%nat ->
  List.length X = num_stages op /\ nth k X [] = AlgProofs.part nm g (w k x).
Proof using K Hn Hd HN Gs Gi Gc HF US Un Uc Uf Lm HC.
  intros x v X g gi k Hfg L E EX Hg Hgl Gn Ho Hle Hk. destruct (flatten_unflatten op x (NDG o K Hn Hd) (NVS o K Hn Hd) L) as (v' & E' & _ & (HK & _)). rewrite E in E'. injection E' as <-.
  destruct (HK g (nth_error_In _ _ Hg)) as (X' & EX' & Sh). rewrite EX in EX'. injection EX' as <-. split; [exact (proj1 Sh)|].
  pose proof (shaped_nth _ _ _ _ Sh Hk) as Lk. unfold group_size in Lk. rewrite Gn in Lk.
  assert (List.length (AlgProofs.part nm g (w k x)) = List.length (nm g)) as Lp by (unfold AlgProofs.part; rewrite firstn_length, skipn_length; unfold w; rewrite win_len by assumption; lia).
  apply vec_ext; [congruence|]. intros c Hc. rewrite Lk in Hc. rewrite (vget_part nm HN) by assumption.
  destruct (nth_error (nm g) c) as [nn|] eqn:Ec; [|apply nth_error_None in Ec; lia]. rewrite <- Gn in Ec.
  assert (is_var op g nn) as IV by (split; [eapply nth_error_In; eauto|eapply nth_error_In; eauto]).
  assert (index_of nn (gnames_of op g) = Some c) as Ix. { apply index_of_nth; [|assumption]. rewrite Gn. destruct HN as (_ & ND & _). apply ND. now right. }
  destruct (get_var_unflatten op x g nn k c (oo_dvo o K) (NDG o K Hn Hd) Hgl L IV Hk Ix) as (d' & a' & r & E2 & Ea & Er & Eg). rewrite E in E2. injection E2 as <-. rewrite EX in Ea. injection Ea as <-.
  unfold get_var in Eg. pose proof (idx_first o K Hn Hd g gi c nn Hg Hgl Ec k Hk) as IF. fold op in IF. rewrite IF in Eg. cbn [bind] in Eg. unfold array_get in Eg. fold op in Eg. rewrite Ho in Eg.
  unfold vget at 1. rewrite (nth_error_nth _ _ _ Er). unfold w, stage_window. rewrite firstn_vget by lia. rewrite skipn_vget. replace (k * num_var_stage op + (AlgProofs.off nm g + c))%nat with (AlgProofs.off nm g + c + k * num_var_stage op)%nat by lia.
  destruct (nth_error x (AlgProofs.off nm g + c + k * num_var_stage op)) as [r'|] eqn:En; [|discriminate]. injection Eg as ->. unfold vget. symmetry. now apply nth_error_nth.
Qed.
Lemma inst_forward : forward_agrees o alg nimp (batched_dots nm (forward p)) nmesh.
Proof using K Hn Hd HN Gs Gi Gc HF US Un Uc Uf Lm HC.
  intros x v X U s L E EX EU ES Y. fold op in L, E.
  assert (forall k, (k < num_stages op)%nat -> List.length X = num_stages op /\ nth k X [] = AlgProofs.part nm "states" (w k x)) as HX.
  { intros k Hk. apply (rows_part x v X "states" 0 k); try assumption; try discriminate; [unfold flat_groups; simpl; auto|unfold op; now rewrite (oo_sg o K)|reflexivity|]. rewrite in_nvs, (nvar nm HN). unfold AlgProofs.off. cbn. lia. }
  assert (forall k, (k < num_stages op)%nat -> nth k U [] = AlgProofs.part nm "inputs" (w k x)) as HU.
  { intros k Hk. apply (rows_part x v U "inputs" 1 k); try assumption; try discriminate; [unfold flat_groups; simpl; auto|unfold op; now rewrite (oo_sg o K)| |].
    - unfold off_of, group_sizes, op. rewrite (oo_sg o K). unfold AlgProofs.off. simpl. unfold group_size. rewrite Gs. lia.
    - rewrite in_nvs, (nvar nm HN). unfold AlgProofs.off. cbn. lia. }
  assert (List.length X = num_stages op) as LX by (apply (HX 0%nat); apply num_stages_pos).
  assert (scale_fn_of o x = s) as Esc by (unfold scale_fn_of; now rewrite ES).
  assert (forall k, (k < num_stages op)%nat -> nth k Y [] = fst (fst (core nm (forward p) (vget k nmesh * s) (AlgProofs.part nm "states" (w k x)) (AlgProofs.part nm "inputs" (w k x))))) as HY.
  { intros k Hk. unfold Y, batched_dots. rewrite LX, nth_comp by assumption. destruct (HX k Hk) as [_ ->]. rewrite (HU k Hk). replace (vget k (map (fun m => m * s) nmesh)) with (vget k nmesh * s).
    - unfold core. destruct (forward_with_arrays _ _ _ _ _) as [[[[? ?] ?] ?]|]; reflexivity.
    - unfold vget. rewrite (nth_map_in _ _ _ _ _ _ 0) by (rewrite Lm; exact Hk). reflexivity. }
  assert (forall k, (k < num_stages op)%nat -> List.length (AlgProofs.part nm "states" (w k x)) = List.length (nm "states") /\ List.length (AlgProofs.part nm "inputs" (w k x)) = List.length (nm "inputs")) as LP.
  { intros k Hk. split; apply (part_len nm HN); try (unfold flat_groups; simpl; auto; fail); now apply w_len. }
  assert (List.length Y = num_stages op) as LY by (unfold Y, batched_dots; now rewrite map_length, seq_length).
  split; [exact LY|]. split.
  - apply Forall_forall. intros r Hr. destruct (In_nth _ _ [] Hr) as (k & Hk & <-). rewrite LY in Hk. rewrite HY by assumption. destruct (LP k Hk) as [L1 L2].
    pose proof (core_len nm (forward p) (vget k nmesh * s) HN (HF _) _ _ L1 L2) as CL. destruct (core _ _ _ _ _) as [[v1 v3] v4]. cbn [fst]. rewrite in_d. apply CL.
  - intros k c j Hk Hj. apply (dot_pos_iff o K Hn Hd) in Hj; [|assumption]. destruct Hj as [Hc ->]. fold op in Hk. assert (num_states o <= nimp)%nat as Hle by (unfold nimp, num_implicit_res; rewrite in_d; lia).
    rewrite alg_vget by (try assumption; lia). rewrite HY by assumption. unfold res. rewrite Esc. rewrite (residual_comp nm (forward p) _ HN (HF _)) by (first [now apply w_len|unfold nimp, num_implicit_res in Hle; rewrite in_d in *; lia]).
    rewrite lin_iff. rewrite in_d in Hc. destruct (Nat.ltb_spec c (List.length (nm "states") + List.length (nm "con_outputs"))); [|lia]. unfold comp. destruct (LP k Hk) as [L1 L2].
    pose proof (core_len nm (forward p) (vget k nmesh * s) HN (HF _) _ _ L1 L2) as CL. destruct (core _ _ _ _ _) as [[v1 v3] v4]. cbn [fst]. destruct CL as (C1 & _). rewrite vget_app, C1. destruct (Nat.ltb_spec c (List.length (nm "states"))); [|lia].
    assert (vget (List.length (nm "states") + List.length (nm "inputs") + c) (w k x) = vget (dt o k c) x) as ->; [|ring]. unfold w, stage_window. rewrite firstn_vget by (rewrite in_nvs, (nvar nm HN); lia). rewrite skipn_vget. f_equal. unfold dt. rewrite in_offD. fold op. lia.
Qed.
End I.

(** The algebra the code builds for a state space model - residual of C34 at every stage, at the physical mesh point - satisfies what the theorems of CondProps ask of it. *)
Theorem C29_applies : forall P roots tn tns n st inp con pts fixed o nm (forward : P -> dict R -> dict R -> R -> result (dict R * dict R)) (u : unitp P) nmesh p,
  built roots tn tns n st inp con pts fixed o -> names_ok nm -> nm "states" = st -> nm "inputs" = inp -> nm "con_outputs" = con -> (forall m, forward_ok nm (forward p) m) ->
  unit_shapes u -> u_nin u = num_implicit_var nm -> u_ncon u = num_implicit_res nm -> (forall x m, List.length x = u_nin u -> u_f u x m p = residual nm (forward p) m x) ->
  List.length nmesh = num_stages (oc_op o) ->
  exists alg, make_conv u (oc_op o) nmesh (scale_fn_of o) p = Ok alg /\
    explicit_algebra o alg (num_implicit_res nm) /\ forward_agrees o alg (num_implicit_res nm) (batched_dots nm (forward p)) nmesh /\
    (unit_jacobian u -> unit_hessian (fun _ _ => True) u -> fixed <> None \/ (forall x m m' p, u_f u x m p = u_f u x m' p) -> exact_algebra o alg) /\
    ((forall x m m' p, u_f u x m p = u_f u x m' p) -> fixed = None -> mesh_free o alg).
Proof.
  intros P roots tn tns n st inp con pts fixed o nm forward u nmesh p Hb HN Es Ei Ec HF US Un Uc Uf Lm.
  destruct (built_ok _ _ _ _ _ _ _ _ _ _ Hb) as (K & Hn & Hd & En & Ed & Gs & Gd & Em & Ef & Gi & Gc & _).
  assert (u_nin u = num_var_stage (oc_op o)) as Hw by (apply (in_w o nm u); congruence).
  destruct (conv_wf P u (oc_op o) nmesh (scale_fn_of o) p Hw (NVS o K Hn Hd) Lm US) as (js & hs & alg & ES & HC & W & _).
  exists alg. split; [exact HC|].
  assert (gnames_of (oc_op o) "states" = nm "states") as Gs' by congruence. assert (gnames_of (oc_op o) "inputs" = nm "inputs") as Gi' by congruence. assert (gnames_of (oc_op o) "con_outputs" = nm "con_outputs") as Gc' by congruence.
  split; [now apply (inst_explicit o nm forward u nmesh p alg)|]. split; [now apply (inst_forward o nm forward u nmesh p alg)|]. split.
  - intros UJ UH [Hf|Hm].
    + apply (inst_exact o nm forward u nmesh p alg); try assumption. left. intros x y. unfold scale_fn_of, get_mesh_scale. rewrite Ef. destruct fixed; [reflexivity|congruence].
    + apply (inst_exact o nm forward u nmesh p alg); try assumption. right. exact Hm.
  - intros Hm Hfx x v L. destruct (alg_facts o nm forward u nmesh p alg K Hn Hd HN Gs' Gi' Gc' HF US Un Uc Uf Lm HC) as (_ & _ & EA). rewrite !EA by (rewrite ?upd_length; assumption). f_equal. apply map_ext_in. intros k Hk. apply in_seq in Hk.
    assert (stage_window (oc_op o) k (upd (num_dec (oc_op o) - 1) v x) = stage_window (oc_op o) k x) as EW.
    { unfold stage_window. apply window_upd_out. right. destruct (index_scale o K Hn Hd ltac:(congruence)) as (_ & _ & N1). rewrite N1. unfold isc, num_all_stage_var. assert ((k + 1) * num_var_stage (oc_op o) <= num_stages (oc_op o) * num_var_stage (oc_op o))%nat by (apply Nat.mul_le_mono_r; lia). lia. }
    rewrite EW. rewrite <- !Uf by (rewrite Hw; apply win_len; [assumption|lia]). apply Hm.
Qed.
Print Assumptions C29_applies.

(** *** a concrete problem: p' = p u, constrained output y = p + u, two intervals, trapezoidal, the mesh scale a variable *)
Definition ex_names (g : string) : list string := if String.eqb g "states" then ["p"] else if String.eqb g "states_dot" then ["p"] else if String.eqb g "inputs" then ["u"]
  else if String.eqb g "outputs" then ["y"] else if String.eqb g "con_outputs" then ["y"] else [].
Definition ex_fwd (_ : unit) (ds di : dict R) (_ : R) : result (dict R * dict R) :=
  bind (lookup_err "p" ds) (fun p => bind (lookup_err "u" di) (fun u => Ok ([("p", p * u)], [("y", p + u)]))).
Definition ex_u : unitp unit := {| u_nin := 4; u_ncon := 2; u_f := fun x _ _ => [vget 0 x * vget 1 x - vget 2 x; vget 0 x + vget 1 x - vget 3 x];
  u_j := fun x _ _ => [vget 1 x; vget 0 x; 1; 1; -1; -1]; u_h := fun x l _ _ => [0; vget 0 l; vget 0 l; 0];
  u_js := ([0; 0; 1; 1; 0; 1]%nat, [0; 1; 0; 1; 2; 3]%nat); u_hs := ([0; 0; 1; 1]%nat, [0; 1; 0; 1]%nat) |}.
Example C29_nonvacuous : exists o alg, built (fun _ => [-1; 1/3]) "Trapezoidal" None 2 ["p"] ["u"] ["y"] None None o /\ num_dec (oc_op o) = 13%nat /\ num_condensed o 2 = 5%nat /\
  explicit_algebra o alg 2 /\ exact_algebra o alg /\ forward_agrees o alg 2 (batched_dots ex_names (ex_fwd tt)) [0; 1/2; 1] /\ mesh_free o alg /\
  condensed_constraints o alg [1; 2; 99; 3; 4; 5; 99; 6; 7; 8; 99; 9; 10] = Ok [4 - 1 - 10 * (1/2) * (2 + 20) / 2; 7 - 4 - 10 * (1/2) * (20 + 56) / 2; 0; 3; 6].
Proof.
  pose (o := {| oc_op := {| mvn := model_names ["p"] ["u"] ["y"] ["y"] []; sgroups := implicit_inputs; gnames := ["mesh_scale"]; nintervals := 2; nspi := 2 |};
       oc_tr := trapezoidal; oc_mesh := map (interval_mesh trapezoidal (linspace01 2)) (seq 0 2); oc_fixed := None; oc_nres := 0 |}).
  assert (built (fun _ => [-1; 1/3]) "Trapezoidal" None 2 ["p"] ["u"] ["y"] None None o) as Hb.
  { constructor; [exact (proj1 C22_nonvacuous)| |lia|discriminate]. exists ["y"], []. reflexivity. }
  assert (names_ok ex_names) as HN.
  { split; [reflexivity|]. split; [intros g Hg; unfold flat_groups in Hg; simpl in Hg; destruct Hg as [<-|[<-|[<-|[<-|[<-|[]]]]]]; repeat constructor; simpl; intuition discriminate|]. split; intros a Ha; simpl in *; intuition. }
  destruct (C29_applies unit (fun _ => [-1; 1/3]) "Trapezoidal" None 2 ["p"] ["u"] ["y"] None None o ex_names ex_fwd ex_u [0; 1/2; 1] tt Hb HN eq_refl eq_refl eq_refl) as (alg & EC & EA & FA & XA & MF).
  - intros m ds di K1 K2. unfold ex_fwd, lookup_err. simpl in K1, K2. destruct ds as [|[a1 v1] [|]]; try discriminate. destruct di as [|[b1 w1] [|]]; try discriminate. injection K1 as ->. injection K2 as ->. cbn. eexists. eexists. split; [reflexivity|]. split; intros a Ha; simpl in *; intuition.
  - repeat split; try reflexivity; repeat constructor.
  - reflexivity.
  - reflexivity.
  - intros x m L. cbn in L. destruct x as [|a [|b [|c [|d [|]]]]]; try discriminate. reflexivity.
  - reflexivity.
  - change (num_implicit_res ex_names) with 2%nat in *. exists o, alg. split; [exact Hb|]. split; [reflexivity|]. split; [reflexivity|]. split; [exact EA|]. split.
    { apply XA; [| |right; reflexivity].
      - intros m p x i j L Hi Hj. simpl in L, Hi, Hj. cbn [ex_u u_f u_j u_js fst snd]. destruct i as [|[|i]]; [| |lia].
        + apply pderiv_ext with (f := fun y => vget 0 y * vget 1 y + (-1) * vget 2 y); [intro y; cbn; unfold vget; cbn; lra|].
          eapply pderiv_eq; [|apply pderiv_plus; [apply pderiv_mult; [apply (pderiv_coord 0%nat); lia|apply (pderiv_coord 1%nat); lia]|apply pderiv_scal; apply (pderiv_coord 2%nat); lia]].
          destruct j as [|[|[|[|j]]]]; [| | | |lia]; cbn; lra.
        + apply pderiv_ext with (f := fun y => (vget 0 y + vget 1 y) + (-1) * vget 3 y); [intro y; cbn; unfold vget; cbn; lra|].
          eapply pderiv_eq; [|apply pderiv_plus; [apply pderiv_plus; [apply (pderiv_coord 0%nat); lia|apply (pderiv_coord 1%nat); lia]|apply pderiv_scal; apply (pderiv_coord 3%nat); lia]].
          destruct j as [|[|[|[|j]]]]; [| | | |lia]; cbn; lra.
      - intros l m p Ll. simpl in Ll. destruct l as [|l0 [|l1 [|]]]; try discriminate.
        exists (fun x j => match j with 0%nat => l0 * vget 1 x + l1 | 1%nat => l0 * vget 0 x + l1 | 2%nat => - l0 | _ => - l1 end). split.
        + intros x j L Hj. simpl in L, Hj. cbn [ex_u u_f]. apply pderiv_ext with (f := fun y => l0 * (vget 0 y * vget 1 y + (-1) * vget 2 y) + l1 * ((vget 0 y + vget 1 y) + (-1) * vget 3 y)); [intro y; cbn; unfold vget; cbn; lra|].
          eapply pderiv_eq; [|apply pderiv_plus; apply pderiv_scal; [apply pderiv_plus; [apply pderiv_mult; [apply (pderiv_coord 0%nat); lia|apply (pderiv_coord 1%nat); lia]|apply pderiv_scal; apply (pderiv_coord 2%nat); lia]|
             apply pderiv_plus; [apply pderiv_plus; [apply (pderiv_coord 0%nat); lia|apply (pderiv_coord 1%nat); lia]|apply pderiv_scal; apply (pderiv_coord 3%nat); lia]]].
          destruct j as [|[|[|[|j]]]]; [| | | |lia]; cbn; lra.
        + intros x j k L Hj Hk _. simpl in L, Hj, Hk. cbn [ex_u u_h u_hs fst snd]. destruct j as [|[|[|[|j]]]]; [| | | |lia].
          * eapply pderiv_eq; [|apply pderiv_plus; [apply pderiv_scal; apply (pderiv_coord 1%nat); lia|apply pderiv_const]]. destruct k as [|[|[|[|k]]]]; [| | | |lia]; cbn; lra.
          * eapply pderiv_eq; [|apply pderiv_plus; [apply pderiv_scal; apply (pderiv_coord 0%nat); lia|apply pderiv_const]]. destruct k as [|[|[|[|k]]]]; [| | | |lia]; cbn; lra.
          * eapply pderiv_eq; [|apply pderiv_const]. destruct k as [|[|[|[|k]]]]; [| | | |lia]; cbn; lra.
          * eapply pderiv_eq; [|apply pderiv_const]. destruct k as [|[|[|[|k]]]]; [| | | |lia]; cbn; lra. }
    split; [exact FA|]. split; [now apply MF|].
    assert (EC' := EC). cbv -[Rplus Rmult Rminus Ropp Rinv IZR INR Rdiv con_constraints] in EC'. injection EC' as <-.
    clear. cbv -[Rplus Rmult Rminus Ropp Rinv IZR INR Rdiv]. cbn [INR]. apply f_equal. repeat match goal with |- (_ :: _) = _ => apply f_equal2; [try lra|] end; reflexivity.
Qed.
