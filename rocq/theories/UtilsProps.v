(** Property theorems C07-C12 (batching, decision-variable indexing, block structures). *)
From Verif Require Import Base TreeModel UtilsModel UtilsProofs UtilsProofs2.

(** *** C07 *)
(** Window [b], position [w] of the result is x[b*stride + w]. *)
Theorem C07_windows : forall A (x : list A) width stride batch,
  0 < stride -> stride <= width <= 2 * stride -> List.length x = width + batch * stride ->
  exists t, batch_conv1d x width stride = Ok t /\ ncols t = width /\ List.length (rows t) = S batch /\
    (forall b, b < S batch -> List.length (nth b (rows t) []) = width) /\
    (forall b w, b < S batch -> w < width -> nth_error (nth b (rows t) []) w = nth_error x (b * stride + w)).
Proof.
  intros A x width stride batch Hs Hw Hl. rewrite (conv_ok _ _ _ _ batch) by assumption.
  eexists; split; [reflexivity|]. cbn [ncols rows]. split; [reflexivity|].
  split; [unfold windows; now rewrite map_length, seq_length|].
  assert (forall b, b < S batch -> nth b (windows x width stride (S batch)) [] = firstn width (skipn (b * stride) x)) as E.
  { intros b Hb. unfold windows.
    rewrite nth_indep with (d' := firstn width (skipn (0 * stride) x)) by (now rewrite map_length, seq_length).
    rewrite map_nth with (f := fun b => firstn width (skipn (b * stride) x)). now rewrite seq_nth. }
  split.
  - intros b Hb. rewrite E by assumption. rewrite firstn_length_le; [reflexivity|]. rewrite skipn_length, Hl.
    assert (b * stride <= batch * stride) by (apply Nat.mul_le_mono_r; lia). lia.
  - intros b w Hb Hwd. rewrite E by assumption. generalize (b * stride) as o. clear -Hwd. intro o; revert x.
    induction o as [|o IH]; intros x; simpl.
    + revert w Hwd x. induction width as [|k IHk]; intros w Hwd x; [lia|]. destruct x; [now destruct w|].
      destruct w; simpl; [reflexivity|]. apply IHk. lia.
    + destruct x; [rewrite firstn_nil; now destruct w|]. apply IH.
Qed.
Print Assumptions C07_windows.

(** For a sequence at least as long as the window: success exactly when the stride divides
    the excess length and width is in [stride, 2*stride]; every other case is an exception. *)
Theorem C07_rejects : forall A (x : list A) width stride, 0 < stride -> width <= List.length x ->
  ((exists t, batch_conv1d x width stride = Ok t) <->
     (exists k, List.length x = width + k * stride) /\ stride <= width <= 2 * stride) /\
  ((forall t, batch_conv1d x width stride <> Ok t) -> batch_conv1d x width stride = Raise ValueError).
Proof.
  intros A x width stride Hs Hw.
  destruct (Nat.eq_dec ((List.length x - width) mod stride) 0) as [E|E].
  - assert (List.length x = width + ((List.length x - width) / stride) * stride) as Hl.
    { pose proof (Nat.div_mod (List.length x - width) stride). lia. }
    assert (stride <= width <= 2 * stride \/ ~ (stride <= width <= 2 * stride)) as [H|H] by lia.
    + rewrite (conv_ok _ _ _ _ _ Hs H Hl). split; [split; eauto|]. intro C; now destruct (C _ eq_refl).
    + rewrite (conv_bad_width _ _ _ _ _ Hs H Hl). split; [|reflexivity].
      split; [intros [t Ht]; discriminate | tauto].
  - rewrite conv_indivisible; [|assumption|].
    + split; [|reflexivity]. split; [intros [t Ht]; discriminate|].
      intros [[k Hk] _]. exfalso. apply E. replace (List.length x - width) with (k * stride) by lia.
      apply Nat.mod_mul. lia.
    + intro C. apply E. rewrite <- Nat2Z.inj_sub in C by assumption.
      rewrite <- Nat2Z.inj_mod in C. lia.
Qed.
Print Assumptions C07_rejects.

(** Finding: a window wider than the sequence is not always rejected: the computed batch count
    is -1, which numpy's reshape takes as "infer", and one short window is returned. *)
Theorem C07_wide_window_refuted :
  batch_conv1d [10; 11] 4 1 = Ok {| ncols := 2; rows := [[10; 11]] |}.
Proof. reflexivity. Qed.

Example C07_nonvacuous : batch_conv1d [0;1;2;3;4;5;6] 3 2 =
  Ok {| ncols := 3; rows := [[0;1;2];[2;3;4];[4;5;6]] |}.
Proof. reflexivity. Qed.

(** *** C08 *)
(** Sample operator used by the examples: the laptime-like layout. *)
Definition sample_names : dict (list string) :=
  [("states", ["x"; "v"]); ("inputs", ["u"]); ("states_dot", ["x"; "v"]); ("con_outputs", [])].
Definition sample_op : dvo :=
  {| mvn := sample_names; sgroups := ["states"; "inputs"; "states_dot"; "con_outputs"];
     gnames := ["mesh_scale"]; nintervals := 2; nspi := 3 |}.
Example sample_op_made : make_dvo sample_names 2 3 ["states"; "inputs"; "states_dot"; "con_outputs"] ["mesh_scale"] = Ok sample_op.
Proof. reflexivity. Qed.

(** A variable occurrence: a stage variable at a stage, or a global variable *)
Inductive slot : Type := SStage (g n : string) (s : nat) | SGlobal (n : string).
Definition slot_ok (op : dvo) (v : slot) : Prop :=
  match v with
  | SStage g n s => In g (sgroups op) /\ In n (gnames_of op g) /\ s < num_stages op
  | SGlobal n => In n (gnames op)
  end.
Definition slot_index (op : dvo) (v : slot) : result nat :=
  match v with
  | SStage g n s => index_at op g n (Z.of_nat s)
  | SGlobal n => index_at op "global" n 0%Z
  end.

Theorem C08_bijection : forall m ni ns sg gn op, make_dvo m ni ns sg gn = Ok op -> ~ In "global" sg ->
  (forall v, slot_ok op v -> exists i, slot_index op v = Ok i /\ i < num_dec op) /\
  (forall v w i, slot_ok op v -> slot_ok op w -> slot_index op v = Ok i -> slot_index op w = Ok i -> v = w) /\
  (forall i, i < num_dec op -> exists v, slot_ok op v /\ slot_index op v = Ok i).
Proof.
  intros m ni ns sg gn op Hmk Hgl. destruct (make_dvo_ok _ _ _ _ _ _ Hmk) as (Hok & _ & Esg & _ & _ & _).
  rewrite <- Esg in Hgl.
  assert (forall g, In g (sgroups op) -> g <> "global") as Hng by (intros g Hg ->; contradiction).
  assert (forall g n s i, In g (sgroups op) -> In n (gnames_of op g) -> s < num_stages op ->
    index_at op g n (Z.of_nat s) = Ok i -> i < num_all_stage_var op) as Hr.
  { intros g n s i H1 H2 H3 H4. exact (index_in_range op g n s i (Hng _ H1) (conj H1 H2) H3 H4). }
  split; [|split].
  - intros [g n s|n]; simpl.
    + intros (H1 & H2 & H3). destruct (index_at_var op g n s (Hng _ H1) (conj H1 H2) H3) as (j & _ & _ & E).
      exists (j + s * num_var_stage op). split; [assumption|]. specialize (Hr _ _ _ _ H1 H2 H3 E). unfold num_dec. lia.
    + intro H. destruct (index_global op n 0%Z H) as (i & E & _ & Hi). eexists; split; [eassumption|]. unfold num_dec. lia.
  - intros [g n s|n] [g' n' s'|n'] i; simpl.
    + intros (H1 & H2 & H3) (H1' & H2' & H3') E E'.
      destruct (index_inj op g n s g' n' s' i Hok (Hng _ H1) (Hng _ H1') (conj H1 H2) (conj H1' H2') H3 H3' E E')
        as (-> & -> & ->). reflexivity.
    + intros (H1 & H2 & H3) H E E'. destruct (index_global op n' 0%Z H) as (j & Ej & _ & _).
      specialize (Hr _ _ _ _ H1 H2 H3 E). rewrite E' in Ej. inversion Ej. lia.
    + intros H (H1 & H2 & H3) E E'. destruct (index_global op n 0%Z H) as (j & Ej & _ & _).
      specialize (Hr _ _ _ _ H1 H2 H3 E'). rewrite E in Ej. inversion Ej. lia.
    + intros H H' E E'. destruct (index_global op n 0%Z H) as (j & Ej & Nj & _).
      destruct (index_global op n' 0%Z H') as (j' & Ej' & Nj' & _). rewrite E in Ej. rewrite E' in Ej'.
      inversion Ej; inversion Ej'. assert (j = j') by lia. subst j'. congruence.
  - intros i Hi. destruct (Nat.lt_ge_cases i (num_all_stage_var op)) as [H|H].
    + destruct (index_surj_stage op i Hok Hgl H) as (g & n & s & [H1 H2] & Hs & E). exists (SStage g n s). simpl. auto.
    + destruct (index_global_surj op i 0%Z Hok (conj H Hi)) as (n & Hn & E). exists (SGlobal n). simpl. auto.
Qed.
Print Assumptions C08_bijection.

Theorem C08_negative_stage : forall op g n s, g <> "global" ->
  (- Z.of_nat (num_stages op) <= s < 0)%Z ->
  index_at op g n s = index_at op g n (s + Z.of_nat (num_stages op)).
Proof. intros. apply index_at_stage_cong; [assumption | now apply norm_stage_neg]. Qed.
Print Assumptions C08_negative_stage.

Theorem C08_stage_out_of_range : forall op g n s, g <> "global" ->
  (s < - Z.of_nat (num_stages op) \/ Z.of_nat (num_stages op) <= s)%Z ->
  index_at op g n s = Raise ValueError.
Proof.
  intros op g n s Hg Hs. unfold index_at. apply String.eqb_neq in Hg. rewrite Hg.
  now rewrite norm_stage_err.
Qed.
Print Assumptions C08_stage_out_of_range.

(** Without a stage argument all stages are returned, in order. *)
Theorem C08_all_stages : forall m ni ns sg gn op g n, make_dvo m ni ns sg gn = Ok op -> In g sg -> g <> "global" ->
  In n (gnames_of op g) ->
  index_all op g n = mapM (fun s => index_at op g n (Z.of_nat s)) (seq 0 (num_stages op)) /\
  exists l, index_all op g n = Ok l /\ List.length l = num_stages op.
Proof.
  intros m ni ns sg gn op g n Hmk Hg Hgl Hn. destruct (make_dvo_ok _ _ _ _ _ _ Hmk) as (Hok & _ & Esg & _ & _ & _).
  subst sg. destruct (index_at_var op g n 0 Hgl (conj Hg Hn) (num_stages_pos op)) as (i & Ei & _ & _).
  assert (index_all op g n = Ok (map (fun s => i + s * num_var_stage op) (seq 0 (num_stages op)))) as E.
  { unfold index_all, enum_get. apply String.eqb_neq in Hgl. rewrite Hgl, Ei. reflexivity. }
  split; [|rewrite E; eexists; split; [reflexivity | now rewrite map_length, seq_length]].
  rewrite E. symmetry.
  assert (forall ss, (forall s, In s ss -> s < num_stages op) ->
    mapM (fun s => index_at op g n (Z.of_nat s)) ss = Ok (map (fun s => i + s * num_var_stage op) ss)) as H.
  { induction ss as [|s r IH]; intros Hs; simpl; [reflexivity|].
    destruct (index_at_var op g n s Hgl (conj Hg Hn)) as (i' & Ei' & _ & E'); [apply Hs; simpl; auto|].
    rewrite E', IH by (intros; apply Hs; simpl; auto). congruence. }
  apply H. intros s Hs. apply in_seq in Hs. lia.
Qed.
Print Assumptions C08_all_stages.

Example C08_nonvacuous : num_dec sample_op = 26 /\
  slot_ok sample_op (SStage "inputs" "u" 3) /\ slot_index sample_op (SStage "inputs" "u" 3) = Ok 17 /\
  index_at sample_op "states" "v" (-1)%Z = Ok 21 /\ slot_index sample_op (SGlobal "mesh_scale") = Ok 25.
Proof. repeat split; try reflexivity; simpl; auto. apply Nat.ltb_lt; reflexivity. Qed.

(** A stage group called "global" makes its variables unreachable: index collision. *)
Theorem C08_global_group_refuted : exists op, make_dvo [("global", ["a"])] 1 2 ["global"] ["a"] = Ok op /\
  slot_ok op (SStage "global" "a" 0) /\ slot_ok op (SGlobal "a") /\
  slot_index op (SStage "global" "a" 0) = slot_index op (SGlobal "a").
Proof. eexists. split; [reflexivity|]. split; [split; [simpl; auto|]; split; [simpl; auto | apply Nat.ltb_lt; reflexivity]|]. split; [simpl; auto | reflexivity]. Qed.

(** *** C09 *)
(** [kw_ok op kw]: every stage group has a num_stages x size array, every global a scalar. *)
Theorem C09_unflatten_flatten : forall A op (kw : dict (field A)),
  NoDup (sgroups op ++ gnames op) -> 0 < num_var_stage op -> kw_ok op kw ->
  exists x d, flatten_var op kw = Ok x /\ List.length x = num_dec op /\ unflatten_var op x = Ok d /\
    keys d = sgroups op ++ gnames op /\ (forall n, In n (sgroups op ++ gnames op) -> dget n d = dget n kw).
Proof. exact (@unflatten_flatten). Qed.
Print Assumptions C09_unflatten_flatten.

Theorem C09_flatten_unflatten : forall A op (x : list A),
  NoDup (sgroups op ++ gnames op) -> 0 < num_var_stage op -> List.length x = num_dec op ->
  exists d, unflatten_var op x = Ok d /\ flatten_var op d = Ok x /\ kw_ok op d.
Proof. exact (@flatten_unflatten). Qed.
Print Assumptions C09_flatten_unflatten.

(** Finding: vectors of the wrong length are accepted (tail dropped / fewer stages). *)
Theorem C09_wrong_length_refuted :
  let op := {| mvn := [("states", ["x"])]; sgroups := ["states"]; gnames := []; nintervals := 1; nspi := 2 |} in
  num_dec op = 2 /\ unflatten_var op [1; 2; 3] = unflatten_var op [1; 2] /\
  unflatten_var op [1] = Ok [("states", FArr [[1]])].
Proof. repeat split. Qed.

Example C09_nonvacuous : NoDup (sgroups sample_op ++ gnames sample_op) /\ 0 < num_var_stage sample_op /\
  exists d, unflatten_var sample_op (seq 0 26) = Ok d /\ flatten_var sample_op d = Ok (seq 0 26) /\
    dget "inputs" d = Some (FArr [[2];[7];[12];[17];[22]]).
Proof.
  split; [apply nodupb_spec; reflexivity|]. split; [apply Nat.ltb_lt; reflexivity|].
  eexists. split; [vm_compute; reflexivity|]. split; vm_compute; reflexivity.
Qed.

(** *** C10 *)
Theorem C10_index_agrees_with_unflatten : forall A m ni ns sg gn op (x : list A) g n s j,
  make_dvo m ni ns sg gn = Ok op -> NoDup (sg ++ gn) -> g <> "global" -> List.length x = num_dec op ->
  In g sg -> s < num_stages op -> index_in_group op g n = Ok j ->
  exists d a v i, unflatten_var op x = Ok d /\ dget g d = Some (FArr a) /\
    index_at op g n (Z.of_nat s) = Ok i /\ nth_error x i = Some v /\ nth_error (nth s a []) j = Some v.
Proof.
  intros A m ni ns sg gn op x g n s j Hmk Hnd Hgl Hl Hg Hs Hj.
  destruct (make_dvo_ok _ _ _ _ _ _ Hmk) as (Hok & _ & Esg & Egn & _ & _). subst sg gn.
  unfold index_in_group in Hj. apply String.eqb_neq in Hgl as Hgl'. rewrite Hgl' in Hj.
  unfold group_names in Hj. destruct (dget g (mvn op)) as [l|] eqn:El; [|discriminate]. cbn [bind] in Hj.
  destruct (index_of n l) as [j'|] eqn:Ej; [|discriminate]. inversion Hj; subst j'.
  assert (gnames_of op g = l) as Eg by (unfold gnames_of; now rewrite El).
  assert (is_var op g n) as Hv.
  { split; [assumption|]. rewrite Eg. destruct (index_of_lt _ _ _ Ej). eapply nth_error_In; eauto. }
  destruct (get_var_unflatten op x g n s j Hok Hnd Hgl Hl Hv Hs) as (d & a & v & E1 & E2 & E3 & E4); [now rewrite Eg|].
  unfold get_var in E4. destruct (index_at op g n (Z.of_nat s)) as [i|] eqn:Ei; [|discriminate]. cbn [bind] in E4.
  unfold array_get in E4. destruct (nth_error x i) as [v'|] eqn:Ex; [|discriminate]. inversion E4; subst v'.
  exists d, a, v, i. auto.
Qed.
Print Assumptions C10_index_agrees_with_unflatten.

Theorem C10_group_indices : forall m ni ns sg gn op g s, make_dvo m ni ns sg gn = Ok op -> In g sg -> g <> "global" ->
  s < num_stages op ->
  group_indices_at op g (Z.of_nat s) = mapM (fun n => index_at op g n (Z.of_nat s)) (gnames_of op g).
Proof.
  intros m ni ns sg gn op g s Hmk Hg Hgl Hs. destruct (make_dvo_ok _ _ _ _ _ _ Hmk) as (Hok & _ & Esg & _ & _ & _).
  subst sg. now apply enum_group.
Qed.
Print Assumptions C10_group_indices.

(** ... and they are consecutive slots starting after the earlier groups of that stage. *)
Theorem C10_group_contiguous : forall m ni ns sg gn op k g s, make_dvo m ni ns sg gn = Ok op ->
  nth_error sg k = Some g -> s < num_stages op ->
  group_indices_at op g (Z.of_nat s) =
    Ok (seq (list_sum (map (group_size op) (firstn k sg)) + s * num_var_stage op) (group_size op g)).
Proof.
  intros m ni ns sg gn op k g s Hmk Hk Hs. destruct (make_dvo_ok _ _ _ _ _ _ Hmk) as (Hok & _ & Esg & _ & _ & _).
  subst sg. rewrite (group_indices_contig op g k s Hok Hk Hs). f_equal.
  assert (off_of op k = list_sum (map (group_size op) (firstn k (sgroups op)))) as <-.
  { unfold off_of, group_sizes. rewrite firstn_map. induction (map (group_size op) (firstn k (sgroups op))); simpl; auto. }
  clear. generalize (off_of op k) as o. generalize (s * num_var_stage op) as t. generalize (group_size op g) as n.
  induction n as [|n IH]; intros t o; simpl; [reflexivity|]. f_equal; [lia|].
  rewrite <- seq_shift, map_map. change (S (o + t)) with (S o + t). rewrite <- IH. apply map_ext; intro; lia.
Qed.
Print Assumptions C10_group_contiguous.

Theorem C10_group_all_stages : forall m ni ns sg gn op g, make_dvo m ni ns sg gn = Ok op -> In g sg ->
  exists blocks, List.length blocks = num_stages op /\
    (forall s, s < num_stages op -> group_indices_at op g (Z.of_nat s) = Ok (nth s blocks [])) /\
    group_indices_in_dec op g = Ok (concat blocks).
Proof.
  intros m ni ns sg gn op g Hmk Hg. destruct (make_dvo_ok _ _ _ _ _ _ Hmk) as (Hok & _ & Esg & _ & _ & _). subst sg.
  apply In_nth_error in Hg. destruct Hg as [k Hk].
  exists (map (fun s => map (fun j => off_of op k + j + s * num_var_stage op) (seq 0 (group_size op g))) (seq 0 (num_stages op))).
  split; [now rewrite map_length, seq_length|]. split.
  - intros s Hs. rewrite (group_indices_contig op g k s Hok Hk Hs). f_equal. symmetry.
    rewrite nth_indep with (d' := map (fun j => off_of op k + j + 0 * num_var_stage op) (seq 0 (group_size op g)))
      by (now rewrite map_length, seq_length).
    rewrite map_nth with (f := fun s => map (fun j => off_of op k + j + s * num_var_stage op) (seq 0 (group_size op g))).
    now rewrite seq_nth.
  - rewrite (group_in_dec op g k Hok Hk). now rewrite flat_map_concat_map.
Qed.
Print Assumptions C10_group_all_stages.

Theorem C10_stage_array : forall A op (x : list A), List.length x = num_dec op ->
  exists m, get_stage_var_array op x = Ok m /\ List.length (rows m) = num_stages op /\
    forall s j, s < num_stages op -> j < num_var_stage op ->
      nth_error (nth s (rows m) []) j = nth_error x (j + s * num_var_stage op).
Proof. exact (@stage_var_array_spec). Qed.
Print Assumptions C10_stage_array.

Example C10_nonvacuous : index_in_group sample_op "states" "v" = Ok 1 /\
  group_indices_at sample_op "states_dot" (-2)%Z = Ok [18; 19] /\
  group_indices_in_dec sample_op "states" = Ok [0;1;5;6;10;11;15;16;20;21].
Proof. repeat split. Qed.

(** *** C11 *)
Theorem C11_interval_tensor : forall A m ni ns sg gn op (x : list A) g,
  make_dvo m ni ns sg gn = Ok op -> NoDup (sg ++ gn) -> 0 < num_var_stage op ->
  List.length x = num_dec op -> In g sg -> 2 <= ns -> 1 <= ni ->
  exists d a t, unflatten_var op x = Ok d /\ dget g d = Some (FArr a) /\ List.length a = num_stages op /\
    get_interval_tensor op x g = Ok t /\ List.length (rows t) = ni /\
    (forall i j, i < ni -> j < ns -> nth_error (nth i (rows t) []) j = nth_error a (i * (ns - 1) + j)) /\
    (forall i, S i < ni -> nth_error (nth i (rows t) []) (ns - 1) = nth_error (nth (S i) (rows t) []) 0) /\
    (forall s, s < num_stages op -> exists i j, i < ni /\ j < ns /\ nth_error (nth i (rows t) []) j = nth_error a s).
Proof.
  intros A m ni ns sg gn op x g Hmk Hnd Hnv Hl Hg Hns Hni.
  destruct (make_dvo_ok _ _ _ _ _ _ Hmk) as (Hok & _ & Esg & Egn & Eni & Ens). subst.
  destruct (interval_tensor op x g Hok Hnd Hnv Hl Hg Hns Hni) as (d & a & t & E1 & E2 & E3 & _ & E5 & E6).
  exists d, a, t. split; [assumption|]. split; [assumption|]. split.
  { destruct (flatten_unflatten op x Hnd Hnv Hl) as (d' & E' & _ & [Hk _]). rewrite E1 in E'. inversion E'; subst d'.
    destruct (Hk g Hg) as (a' & Ea & [La _]). congruence. }
  split; [assumption|]. split; [assumption|]. split; [assumption|]. split.
  - intros i Hi. rewrite !E6 by lia. f_equal. simpl. lia.
  - intros s Hs. unfold num_stages in Hs. set (k := nspi op - 1) in *.
    destruct (Nat.eq_dec s (nintervals op * k)) as [->|Hne].
    + exists (nintervals op - 1), k. split; [lia|]. split; [unfold k; lia|]. rewrite E6 by (unfold k; lia). f_equal.
      fold k. replace (nintervals op) with (S (nintervals op - 1)) at 2 by lia. simpl. lia.
    + assert (k <> 0) by (unfold k; lia). exists (s / k), (s mod k).
      pose proof (Nat.div_mod s k). pose proof (Nat.mod_upper_bound s k).
      assert (s / k < nintervals op) by (apply Nat.div_lt_upper_bound; lia).
      split; [assumption|]. split; [unfold k in *; lia|]. rewrite E6 by (unfold k in *; lia). f_equal. fold k. lia.
Qed.
Print Assumptions C11_interval_tensor.

Example C11_nonvacuous : exists t, get_interval_tensor sample_op (seq 0 26) "inputs" = Ok t /\
  rows t = [[[2];[7];[12]]; [[12];[17];[22]]].
Proof. eexists. split; vm_compute; reflexivity. Qed.

(** *** C12 *)
Theorem C12_offset_entries : forall br bc ro co nb rs cs, List.length br = List.length bc ->
  create_offset_structure br bc ro co nb = Ok (rs, cs) ->
  List.length rs = nb * List.length br /\ List.length cs = nb * List.length br /\
  (forall k e r c, k < nb -> nth_error br e = Some r -> nth_error bc e = Some c ->
     nth_error rs (k * List.length br + e) = Some (r + k * ro) /\
     nth_error cs (k * List.length br + e) = Some (c + k * co)).
Proof.
  intros br bc ro co nb rs cs Hl H. unfold create_offset_structure in H.
  destruct (Nat.eqb nb 0); [discriminate|]. inversion H; subst. clear H.
  assert (forall b off e v st, nth_error b e = Some v -> forall k n, k < n ->
    nth_error (flat_map (fun i => map (fun r => r + i * off) b) (seq st n)) (k * List.length b + e) = Some (v + (st + k) * off)) as G.
  { intros b off e v st He k n. revert st k. induction n as [|n IH]; intros st k Hk; [lia|]. simpl seq. simpl flat_map.
    assert (e < List.length b) as Hel by (apply nth_error_Some; congruence).
    destruct k as [|k].
    - rewrite nth_error_app1 by (rewrite map_length; lia). simpl. rewrite nth_error_map, He. simpl. f_equal. lia.
    - rewrite nth_error_app2 by (rewrite map_length; simpl; lia). rewrite map_length.
      replace (S k * List.length b + e - List.length b) with (k * List.length b + e) by (simpl; lia).
      rewrite IH by lia. f_equal. f_equal. f_equal. lia. }
  split; [|split].
  - rewrite flat_map_len_const with (k := List.length br); [now rewrite seq_length | intro; now rewrite map_length].
  - rewrite flat_map_len_const with (k := List.length br); [now rewrite seq_length | intro; rewrite map_length; auto].
  - intros k e r c Hk Hr Hc. split; [exact (G br ro e r 0 Hr k nb Hk)|]. rewrite Hl. exact (G bc co e c 0 Hc k nb Hk).
Qed.
Print Assumptions C12_offset_entries.

Theorem C12_offset_distinct : forall br bc ro co nb rs cs, List.length br = List.length bc ->
  NoDup (combine br bc) -> Forall (fun r => r < ro) br ->
  create_offset_structure br bc ro co nb = Ok (rs, cs) ->
  NoDup (combine rs cs) /\ Forall (fun r => r < nb * ro) rs.
Proof.
  intros br bc ro co nb rs cs Hl Hnd Hr H.
  destruct (offset_entries _ _ _ _ _ _ _ Hl H) as [_ E]. rewrite E. rewrite Forall_forall in Hr. split.
  - apply offset_nodup; [assumption|]. intros [r c] Hin. apply in_combine_l in Hin. simpl. auto.
  - unfold create_offset_structure in H. destruct (Nat.eqb nb 0); [discriminate|]. inversion H; subst.
    apply Forall_forall. intros r Hin. apply in_flat_map in Hin. destruct Hin as (k & Hk & Hin).
    apply in_seq in Hk. apply in_map_iff in Hin. destruct Hin as (r0 & <- & H0). specialize (Hr _ H0).
    assert ((k + 1) * ro <= nb * ro) by (apply Nat.mul_le_mono_r; lia). lia.
Qed.
Print Assumptions C12_offset_distinct.

Theorem C12_stack_agrees : forall br bc ro co nb rs cs, create_offset_structure br bc ro co nb = Ok (rs, cs) ->
  rs = concat (stack_and_increment br nb ro) /\ cs = concat (stack_and_increment bc nb co).
Proof.
  intros br bc ro co nb rs cs H. unfold create_offset_structure in H. destruct (Nat.eqb nb 0); [discriminate|].
  inversion H; subst. unfold stack_and_increment. rewrite !flat_map_concat_map. split; reflexivity.
Qed.
Print Assumptions C12_stack_agrees.

Theorem C12_stack_slots : forall x n inc k j v, k < n -> nth_error x j = Some v ->
  nth_error (nth k (stack_and_increment x n inc) []) j = Some (v + k * inc).
Proof. exact stack_rows. Qed.
Print Assumptions C12_stack_slots.

Example C12_nonvacuous : create_offset_structure [0;0;1] [0;1;2] 2 3 2 = Ok ([0;0;1;2;2;3], [0;1;2;3;4;5]) /\
  NoDup (combine [0;0;1] [0;1;2]).
Proof. split; [reflexivity|]. repeat constructor; simpl; intuition congruence. Qed.
