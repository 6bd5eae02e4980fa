(** Proofs about the objectives. *)
From Verif Require Import Base RBase TreeModel UtilsModel UtilsProofs UtilsProofs2 CollocModel CollocProofs CollocProps MeshModel NlpModel NlpProofs2 OcpModel OcpProofs OcpProofs2 OcpProofs3 OcpSpec OcpProps
  BoundModel BoundSpec BoundProofs ObjModel.

Section Obj.
Variable o : ocp.
Hypothesis K : ocp_ok o.
Hypothesis Hn : (1 <= num_intervals o)%nat.
Hypothesis Hd : (1 <= num_states o)%nat.
Let op := oc_op o.
Let ns := num_stages op.
Let nvs := num_var_stage op.
Let ni := group_size op "inputs".
Let offI := off_of op 1.
Definition iidx (s c : nat) : nat := (off_of (oc_op o) 1 + c + s * num_var_stage (oc_op o))%nat.

Lemma NDG : NoDup (sgroups op ++ gnames op).
Proof using K Hn Hd. exact (nodup_groups o K Hn Hd). Qed.
Lemma NVS : (0 < num_var_stage op)%nat.
Proof using K Hn Hd. exact (nvs_pos o K Hn Hd). Qed.
Lemma sgI : nth_error (sgroups op) 1 = Some "inputs".
Proof using K Hn Hd. unfold op. rewrite (oo_sg o K). reflexivity. Qed.

Lemma idxI : forall s c nm, (s < ns)%nat -> nth_error (gnames_of op "inputs") c = Some nm -> index_at op "inputs" nm (Z.of_nat s) = Ok (iidx s c).
Proof using K Hn Hd.
  intros s c nm Hs Hc. unfold index_at. rewrite norm_stage_nat by assumption. cbn [String.eqb Ascii.eqb Bool.eqb bind]. unfold enum_get.
  pose proof (index_of_svname op 1 "inputs" c nm (oo_dvo o K) sgI Hc) as E. simpl. rewrite E. reflexivity.
Qed.
Lemma iidx_lt : forall s c, (s < ns)%nat -> (c < ni)%nat -> (iidx s c < num_dec op)%nat.
Proof using K Hn Hd.
  intros s c Hs Hc. destruct (nth_error (gnames_of op "inputs") c) as [nm|] eqn:E.
  - eapply slot_lt. split; [exact Hs|apply (idxI s c nm Hs E)].
  - apply nth_error_None in E. unfold ni, group_size in Hc. lia.
Qed.
Lemma iidx_inj : forall s c s' c', (s < ns)%nat -> (s' < ns)%nat -> (c < ni)%nat -> (c' < ni)%nat -> iidx s c = iidx s' c' -> s = s' /\ c = c'.
Proof using K Hn Hd.
  intros s c s' c' Hs Hs' Hc Hc' E. unfold ni, group_size in Hc, Hc'.
  destruct (nth_error (gnames_of op "inputs") c) as [nm|] eqn:E1; [|apply nth_error_None in E1; lia].
  destruct (nth_error (gnames_of op "inputs") c') as [nm'|] eqn:E2; [|apply nth_error_None in E2; lia].
  pose proof (index_of_svname op 1 "inputs" c nm (oo_dvo o K) sgI E1) as A1. pose proof (index_of_svname op 1 "inputs" c' nm' (oo_dvo o K) sgI E2) as A2.
  apply index_of_lt in A1, A2. rewrite stage_var_names_length in A1, A2. destruct A1 as [A1 _], A2 as [A2 _].
  unfold iidx in E. destruct (mixed_radix (num_var_stage op) (off_of op 1 + c) (off_of op 1 + c') s s' A1 A2 E) as [X Y]. unfold op in *. lia.
Qed.

(** unflattening gives the input values, stage by stage *)
Lemma inputs_comp : forall x, List.length x = num_dec op -> exists d, unflatten_var op x = Ok d /\ kw_ok op d /\
  get_inputs d = Ok (map (fun s => map (fun c => vget (iidx s c) x) (seq 0 ni)) (seq 0 ns)).
Proof using K Hn Hd.
  intros x L. destruct (flatten_unflatten op x NDG NVS L) as (d & E & _ & HK). exists d. split; [assumption|]. split; [assumption|].
  destruct HK as [HK _]. destruct (HK "inputs" (nth_error_In _ _ sgI)) as (a & Ea & [La Fa]). unfold get_inputs. rewrite Ea. simpl. f_equal.
  apply (list_eq_nth _ []); [now rewrite map_length, seq_length|]. intros s Hs. fold ns in La. rewrite La in Hs.
  rewrite (nth_map_in _ _ _ _ _ _ 0%nat) by (now rewrite seq_length). rewrite seq_nth by assumption. simpl.
  assert (List.length (nth s a []) = ni) as Lr by (apply (shaped_nth ns ni a s); [split; assumption|assumption]).
  apply (list_eq_nth _ 0); [now rewrite map_length, seq_length|]. intros c Hc. rewrite Lr in Hc.
  rewrite (nth_map_in _ _ _ _ _ _ 0%nat) by (now rewrite seq_length). rewrite seq_nth by assumption. simpl.
  destruct (nth_error (gnames_of op "inputs") c) as [nm|] eqn:En; [|apply nth_error_None in En; unfold ni, group_size in Hc; lia].
  assert (is_var op "inputs" nm) as Hv by (split; [exact (nth_error_In _ _ sgI)|eapply nth_error_In; eauto]).
  destruct (get_var_unflatten op x "inputs" nm s c (oo_dvo o K) NDG ltac:(discriminate) L Hv Hs) as (d' & a' & v & E' & Ea' & Ev & Eg).
  { apply index_of_nth; [|assumption]. pose proof (ok_names _ (oo_dvo o K)) as ND. unfold stage_var_names in ND. rewrite (oo_sg o K) in ND. unfold implicit_inputs in ND. simpl in ND.
    apply NoDup_app_inv in ND. destruct ND as (_ & ND & _). apply NoDup_app_inv in ND. destruct ND as (ND & _ & _). now apply NoDup_map_inv in ND. }
  rewrite E in E'. injection E' as <-. rewrite Ea in Ea'. injection Ea' as <-. rewrite (nth_error_nth _ _ _ Ev).
  unfold get_var in Eg. rewrite (idxI s c nm Hs En) in Eg. cbn [bind] in Eg. unfold array_get in Eg. rewrite (nth_error_nth' x 0) in Eg by (rewrite L; now apply iidx_lt).
  injection Eg as Eg. exact (eq_sym Eg).
Qed.

(** values of a flattened dictionary *)
Lemma flat_value : forall kw y g nm s c a, kw_ok op kw -> flatten_var op kw = Ok y -> g <> "global" -> is_var op g nm -> (s < ns)%nat -> index_of nm (gnames_of op g) = Some c ->
  dget g kw = Some (FArr a) -> exists i, index_at op g nm (Z.of_nat s) = Ok i /\ vget i y = nth c (nth s a []) 0 /\ List.length y = num_dec op.
Proof using K Hn Hd.
  intros kw y g nm s c a HK HF Hg Hv Hs Hc Ha. destruct (unflatten_flatten op kw NDG NVS HK) as (y' & d & E1 & L & E2 & Kd & Hget). rewrite HF in E1. injection E1 as <-.
  destruct (get_var_unflatten op y g nm s c (oo_dvo o K) NDG Hg L Hv Hs Hc) as (d' & a' & v & E' & Ea' & Ev & Eg). rewrite E2 in E'. injection E' as <-.
  rewrite Hget in Ea' by (apply in_or_app; left; apply Hv). rewrite Ha in Ea'. injection Ea' as <-.
  unfold get_var in Eg. destruct (index_at op g nm (Z.of_nat s)) as [i|] eqn:Ei; [|discriminate]. exists i. split; [reflexivity|]. split; [|assumption].
  cbn [bind] in Eg. unfold array_get in Eg. destruct (nth_error y i) as [w|] eqn:Ew; [|discriminate]. injection Eg as ->. unfold vget. rewrite (nth_error_nth _ _ _ Ew). symmetry. now apply nth_error_nth.
Qed.
Lemma flat_global : forall kw y v, kw_ok op kw -> flatten_var op kw = Ok y -> oc_fixed o = None -> dget "mesh_scale" kw = Some (FSc v) ->
  vget (num_all_stage_var op) y = v /\ List.length y = num_dec op.
Proof using K Hn Hd.
  intros kw y v HK HF EF Hv. destruct (unflatten_flatten op kw NDG NVS HK) as (y' & d & E1 & L & E2 & Kd & Hget). rewrite HF in E1. injection E1 as <-. split; [|assumption].
  pose proof (unflatten_spec op y NDG NVS L) as U. rewrite E2 in U. injection U as U.
  assert (gnames op = ["mesh_scale"]) as EG by (unfold op; now rewrite (oo_gn o K), EF).
  specialize (Hget "mesh_scale"). rewrite Hv in Hget. rewrite U in Hget. rewrite EG in Hget. 
  assert (skipn (num_all_stage_var op) y = [vget (num_all_stage_var op) y]) as SK.
  { apply (list_eq_nth _ 0); [rewrite skipn_length, L; unfold num_dec, num_global_var; rewrite EG; simpl; lia|]. intros i Hi. rewrite skipn_length, L in Hi. unfold num_dec, num_global_var in Hi. rewrite EG in Hi. simpl in Hi.
    assert (i = 0)%nat as -> by lia. pose proof (skipn_vget 0 (num_all_stage_var op) y) as SV. unfold vget in *. rewrite SV. simpl. now rewrite Nat.add_0_r. }
  rewrite SK in Hget. assert (In "mesh_scale" (sgroups op ++ ["mesh_scale"])) as HI by (apply in_or_app; right; now left). specialize (Hget HI).
  rewrite dget_app in Hget. rewrite dget_combine_notin in Hget.
  - simpl in Hget. congruence.
  - pose proof NDG as ND. rewrite EG in ND. apply NoDup_app_inv in ND. destruct ND as (_ & _ & Hdis). intro H. apply (Hdis "mesh_scale"); [assumption|now left].
Qed.
End Obj.
