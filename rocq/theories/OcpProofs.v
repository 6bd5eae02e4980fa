(** Proofs about the continuity constraints. *)
From Verif Require Import Base RBase TreeModel UtilsModel UtilsProofs UtilsProofs2 CollocModel CollocProofs CollocProofs2 CollocProps
  NlpModel NlpProofs NlpProofs2 MeshModel MeshProofs MeshProps OcpModel.

(** ** Comprehensions *)
Lemma list_comp : forall A (l : list A) d, l = map (fun i => nth i l d) (seq 0 (List.length l)).
Proof.
  intros A l d. apply (list_eq_nth _ d); [now rewrite map_length, seq_length|]. intros i Hi.
  rewrite (nth_map_in _ _ _ _ _ _ 0%nat) by (now rewrite seq_length). now rewrite seq_nth.
Qed.
Lemma nth_comp : forall A (f : nat -> A) n i d, (i < n)%nat -> nth i (map f (seq 0 n)) d = f i.
Proof. intros. rewrite (nth_map_in _ _ _ _ _ _ 0%nat) by (now rewrite seq_length). now rewrite seq_nth. Qed.
Lemma map2_comp : forall A B C (f : A -> B -> C) (g : nat -> A) (h : nat -> B) l, map2 f (map g l) (map h l) = map (fun i => f (g i) (h i)) l.
Proof. intros A B C f g h l; induction l; simpl; congruence. Qed.
Lemma repeat_comp : forall A (a : A) n, repeat a n = map (fun _ => a) (seq 0 n).
Proof. intros A a n. generalize 0%nat. induction n as [|n IH]; intro s; simpl; [reflexivity|]. now rewrite (IH (S s)). Qed.
Lemma map_in : forall A B (f g : A -> B) l, (forall a, In a l -> f a = g a) -> map f l = map g l.
Proof. intros A B f g l H; induction l as [|a l IH]; simpl; [reflexivity|]. rewrite H by (simpl; auto). rewrite IH; [reflexivity|]. intros; apply H; simpl; auto. Qed.
Lemma map_seq_in : forall A (f g : nat -> A) n, (forall i, (i < n)%nat -> f i = g i) -> map f (seq 0 n) = map g (seq 0 n).
Proof. intros. apply map_in. intros a Ha. apply in_seq in Ha. apply H. lia. Qed.

Lemma mmul_comp : forall A (X : nat -> nat -> R) m d, Forall (fun r => List.length r = m) A ->
  mmul A (map (fun j => map (fun c => X j c) (seq 0 d)) (seq 0 m)) d =
  map (fun l => map (fun c => rsum (map (fun j => mget l j A * X j c) (seq 0 m))) (seq 0 d)) (seq 0 (List.length A)).
Proof.
  intros A X m d F. unfold mmul. rewrite (list_comp _ A []) at 1. rewrite map_map. apply map_seq_in. intros l Hl.
  apply map_seq_in. intros c Hc. rewrite map_map. unfold vdot, vmul.
  assert (List.length (nth l A []) = m) as L by (rewrite Forall_forall in F; apply F; now apply nth_In).
  rewrite (list_comp _ (nth l A []) 0) at 1. rewrite L, map2_comp. f_equal. apply map_seq_in. intros j Hj.
  unfold mget, vget. f_equal. now rewrite nth_comp.
Qed.

Lemma mscale_comp : forall (X : nat -> nat -> R) m d h,
  mscale (map (fun j => map (fun c => X j c) (seq 0 d)) (seq 0 m)) h = map (fun j => map (fun c => X j c * h) (seq 0 d)) (seq 0 m).
Proof. intros. unfold mscale. rewrite map_map. apply map_ext. intro j. now rewrite map_map. Qed.
Lemma msub_comp : forall (X Y : nat -> nat -> R) k d,
  msub (map (fun j => map (fun c => X j c) (seq 0 d)) (seq 0 k)) (map (fun j => map (fun c => Y j c) (seq 0 d)) (seq 0 k)) =
  map (fun j => map (fun c => X j c - Y j c) (seq 0 d)) (seq 0 k).
Proof. intros. unfold msub. rewrite map2_comp. apply map_ext. intro j. unfold vsub. now rewrite map2_comp. Qed.
Lemma mat_comp : forall (M : mat) m, Forall (fun r => List.length r = m) M ->
  M = map (fun l => map (fun j => mget l j M) (seq 0 m)) (seq 0 (List.length M)).
Proof.
  intros M m F. rewrite (list_comp _ M []) at 1. apply map_seq_in. intros l Hl.
  rewrite (list_comp _ (nth l M []) 0). rewrite Forall_forall in F. rewrite (F (nth l M [])) by (now apply nth_In). reflexivity.
Qed.
Lemma mopp_shape : forall M m, Forall (fun r => List.length r = m) M -> Forall (fun r => List.length r = m) (mopp M).
Proof. intros M m F. unfold mopp. apply Forall_map. eapply Forall_impl; [|exact F]. simpl; intros. now rewrite map_length. Qed.
Lemma mopp_get : forall M l j, mget l j (mopp M) = - mget l j M.
Proof.
  intros M l j. unfold mget, mopp, vget. destruct (Nat.lt_ge_cases l (List.length M)) as [H|H].
  - rewrite (nth_map_in _ _ _ _ _ _ []) by assumption. destruct (Nat.lt_ge_cases j (List.length (nth l M []))) as [H1|H1].
    + now rewrite (nth_map_in _ _ _ _ _ _ 0).
    + rewrite !nth_overflow by (rewrite ?map_length; assumption). lra.
  - rewrite (nth_overflow (map _ M)) by (rewrite map_length; assumption). rewrite (nth_overflow M) by assumption.
    destruct j; simpl; lra.
Qed.

Lemma firstn_skipn_seq : forall A (f : nat -> A) N a m, (a + m <= N)%nat -> firstn m (skipn a (map f (seq 0 N))) = map (fun j => f (a + j)%nat) (seq 0 m).
Proof.
  intros A f N a m H. rewrite skipn_map, firstn_map.
  assert (skipn a (seq 0 N) = seq a (N - a)) as ->.
  { replace N with (a + (N - a))%nat at 1 by lia. rewrite seq_app, skipn_app, seq_length, Nat.sub_diag. rewrite skipn_all2 by (rewrite seq_length; lia). reflexivity. }
  assert (firstn m (seq a (N - a)) = seq a m) as ->.
  { replace (N - a)%nat with (m + (N - a - m))%nat by lia. rewrite seq_app, firstn_app, seq_length, Nat.sub_diag.
    rewrite firstn_all2 by (rewrite seq_length; lia). simpl. apply app_nil_r. }
  rewrite <- (Nat.add_0_r a) at 1. rewrite <- (map_map (fun j => (a + j)%nat) f). f_equal.
  generalize 0%nat. clear. intro s. revert s. induction m as [|m IH]; intro s; simpl; [reflexivity|]. f_equal. rewrite <- IH. f_equal. lia.
Qed.

(** ** Interval tensor *)
Lemma tensor_comp : forall op (x : list R) g k, NoDup (sgroups op ++ gnames op) -> nth_error (sgroups op) k = Some g ->
  (0 < num_var_stage op)%nat -> List.length x = num_dec op -> (1 <= nintervals op)%nat -> (2 <= nspi op)%nat ->
  get_interval_tensor op x g = Ok {| ncols := nspi op; rows :=
    map (fun i => map (fun j => map (fun c => vget (off_of op k + c + (i * (nspi op - 1) + j) * num_var_stage op) x)
        (seq 0 (group_size op g))) (seq 0 (nspi op))) (seq 0 (nintervals op)) |}.
Proof.
  intros op x g k Hnd Hk Hnv Hl Hn Hm. unfold get_interval_tensor. rewrite unflatten_spec by assumption. cbn [bind].
  set (M := chunks (num_stages op) (num_var_stage op) (firstn (num_all_stage_var op) x)).
  assert (List.length (firstn (num_all_stage_var op) x) = (num_stages op * num_var_stage op)%nat) as Lf.
  { rewrite firstn_length_le; [reflexivity|]. rewrite Hl. unfold num_dec. lia. }
  assert (Forall (fun r => List.length r = num_var_stage op) M) as WM by (apply chunks_shaped; exact Lf).
  assert (List.length M = num_stages op) as LM by (apply chunks_length).
  assert (k < List.length (sgroups op))%nat as Hkl by (apply nth_error_Some; congruence).
  pose proof (NoDup_app_inv _ _ _ Hnd) as (Hnd1 & _ & _).
  rewrite dget_app. rewrite (dget_combine _ _ _ k g (FArr (map (fun row => nth k (split_sizes (group_sizes op) row) []) M)) Hnd1 Hk).
  2: { unfold split_groups. rewrite !nth_error_map.
       assert (nth_error (seq 0 (Nat.max 1 (List.length (sgroups op)))) k = Some k) as ->; [|reflexivity].
       rewrite nth_error_nth' with (d := 0%nat) by (rewrite seq_length; lia). rewrite seq_nth by lia. reflexivity. }
  cbn [as_array bind].
  assert (map (fun row => nth k (split_sizes (group_sizes op) row) []) M =
          map (fun s => map (fun c => vget (off_of op k + c + s * num_var_stage op) x) (seq 0 (group_size op g))) (seq 0 (num_stages op))) as ->.
  { rewrite (list_comp _ M []), map_map, LM. apply map_seq_in. intros s Hs.
    assert (List.length (nth s M []) = num_var_stage op) as Ls by (rewrite Forall_forall in WM; apply WM, nth_In; lia).
    assert (nth_error (group_sizes op) k = Some (group_size op g)) as Eg by (unfold group_sizes; now rewrite nth_error_map, Hk).
    assert (nth_error (split_sizes (group_sizes op) (nth s M [])) k <> None -> True) as _ by auto.
    assert (forall c, (c < group_size op g)%nat -> nth_error (nth k (split_sizes (group_sizes op) (nth s M [])) []) c =
              Some (vget (off_of op k + c + s * num_var_stage op) x)) as Hc.
    { intros c Hc. rewrite (nth_error_split_sizes (group_sizes op) (nth s M []) k (group_size op g) c); [|rewrite <- nsum_sum; exact Ls|exact Eg|exact Hc].
      fold (off_of op k).
      assert (off_of op k + c < num_var_stage op)%nat as Hlt.
      { unfold off_of, num_var_stage. clear -Eg Hc. revert k Eg. induction (group_sizes op) as [|a l IH]; intros [|k] E; simpl in *; try discriminate.
        - inversion E; subst. lia.
        - specialize (IH k E). lia. }
      unfold M. rewrite (nth_error_chunk (num_stages op) (num_var_stage op) _ s _ Hs Hlt).
      assert (off_of op k + c + s * num_var_stage op < num_all_stage_var op)%nat as Hi.
      { unfold num_all_stage_var. assert ((s + 1) * num_var_stage op <= num_stages op * num_var_stage op)%nat by (apply Nat.mul_le_mono_r; lia). lia. }
      unfold vget. rewrite nth_error_nth' with (d := 0) by (rewrite Lf; unfold num_all_stage_var in Hi; lia). f_equal.
      rewrite <- (firstn_skipn (num_all_stage_var op) x) at 2. rewrite app_nth1; [reflexivity|]. rewrite Lf. unfold num_all_stage_var in Hi; lia. }
    assert (List.length (nth k (split_sizes (group_sizes op) (nth s M [])) []) = group_size op g) as Lk.
    { clear Hc. revert Ls Eg. unfold num_var_stage. generalize (nth s M []) as row. generalize (group_size op g) as z. clear. intros z row. revert row k.
      induction (group_sizes op) as [|a l IH]; intros row k L E; [destruct k; discriminate|]. simpl in L. destruct l as [|b l].
      - destruct k as [|[|k]]; simpl in *; try discriminate. inversion E. lia.
      - change (split_sizes (a :: b :: l) row) with (firstn a row :: split_sizes (b :: l) (skipn a row)). destruct k as [|k].
        + simpl in E. inversion E; subst. cbn [nth]. rewrite firstn_length_le; lia.
        + cbn [nth]. apply IH; [rewrite skipn_length; lia|exact E]. }
    apply (list_eq_nth _ 0); [rewrite map_length, seq_length; exact Lk|]. intros c Hcl. rewrite Lk in Hcl. rewrite nth_comp by assumption.
    specialize (Hc c Hcl). apply nth_error_nth with (d := 0) in Hc. exact Hc. }
  rewrite (conv_ok _ _ (nspi op) (nspi op - 1) (nintervals op - 1)); [| lia | lia | rewrite map_length, seq_length; unfold num_stages; nia].
  f_equal. f_equal. unfold windows. replace (S (nintervals op - 1)) with (nintervals op) by lia. apply map_seq_in. intros i Hi.
  rewrite firstn_skipn_seq; [reflexivity|]. unfold num_stages. nia.
Qed.

(** ** Well-built problems *)
Record ocp_ok (o : ocp) : Prop := {
  oo_dvo : dvo_ok (oc_op o);
  oo_sg : sgroups (oc_op o) = implicit_inputs;
  oo_gn : gnames (oc_op o) = match oc_fixed o with Some _ => [] | None => ["mesh_scale"] end;
  oo_tr : tr_ok (oc_tr o);
  oo_m : nspi (oc_op o) = t_stages (oc_tr o);
  oo_len : List.length (interval_lengths (oc_mesh o)) = nintervals (oc_op o);
  oo_d : gnames_of (oc_op o) "states_dot" = gnames_of (oc_op o) "states";
}.

Lemma make_ocp_ok : forall roots tn tns n st inp out con res pts fixed o, oracle_ok roots tns ->
  make_ocp roots tn tns n st inp out con res pts fixed = Ok o ->
  ocp_ok o /\ num_intervals o = n /\ num_states o = List.length st /\ gnames_of (oc_op o) "states" = st /\ gnames_of (oc_op o) "inputs" = inp /\
  gnames_of (oc_op o) "con_outputs" = con /\ oc_fixed o = fixed /\ make_transcription roots tn tns = Ok (oc_tr o) /\ make_mesh n (oc_tr o) pts = Ok (oc_mesh o).
Proof.
  intros roots tn tns n st inp out con res pts fixed o HO H. unfold make_ocp in H.
  destruct (match fixed with Some s => negb (rltb 0 s) | None => false end); [discriminate|].
  destruct (make_transcription roots tn tns) as [t|] eqn:Et; [|discriminate]. cbn [bind] in H.
  destruct (make_dvo _ _ _ _ _) as [op|] eqn:Eo; [|discriminate]. cbn [bind] in H.
  destruct (make_mesh n t pts) as [m|] eqn:Em; [|discriminate]. cbn [bind] in H. inversion H; subst o. clear H.
  destruct (make_dvo_ok _ _ _ _ _ _ Eo) as (Hok & Emv & Esg & Egn & Eni & Ens).
  unfold num_intervals, num_states, group_size, gnames_of. simpl. rewrite Emv. simpl.
  assert (ocp_ok {| oc_op := op; oc_tr := t; oc_mesh := m; oc_fixed := fixed; oc_nres := List.length res |}).
  { constructor; simpl; auto.
    - now apply (tr_ok_make roots tn tns).
    - rewrite Eni. unfold make_mesh in Em. unfold interval_lengths. rewrite map_length. destruct pts as [q|].
      + destruct (check_interval_points n q); simpl in Em; [|discriminate]. inversion Em. now rewrite map_length, seq_length.
      + simpl in Em. inversion Em. now rewrite map_length, seq_length.
    - unfold gnames_of. rewrite Emv. reflexivity. }
  repeat (split; [assumption || reflexivity|]). assumption.
Qed.

Section Ocp.
Variable o : ocp.
Hypothesis K : ocp_ok o.
Hypothesis Hn : (1 <= num_intervals o)%nat.
Hypothesis Hd : (1 <= num_states o)%nat.
Let op := oc_op o.
Let m := nspi op.
Let n := num_intervals o.
Let d := num_states o.
Let nvs := num_var_stage op.
Let A := t_A (oc_tr o).
Let B := t_B (oc_tr o).
Let len i := vget i (interval_lengths (oc_mesh o)).

Definition offS : nat := 0.
Definition offD : nat := (d + group_size op "inputs")%nat.
Definition ia (i j c : nat) : nat := (offS + c + (i * (m - 1) + j) * nvs)%nat.
Definition ib (i j c : nat) : nat := (offD + c + (i * (m - 1) + j) * nvs)%nat.
Definition isc : nat := num_all_stage_var op.
Definition scl (x : list R) : R := match oc_fixed o with Some s => s | None => vget isc x end.
(** the defect of row l, state c in interval i *)
Definition Fdef (i l c : nat) (x : list R) : R :=
  rsum (map (fun j => mget l j A * vget (ia i j c) x) (seq 0 m)) -
  rsum (map (fun j => mget l j B * (vget (ib i j c) x * (len i * scl x))) (seq 0 m)).

Lemma m2 : (2 <= m)%nat.
Proof using K Hn Hd. unfold m, op. rewrite (oo_m o K). apply (tr_two _ (oo_tr o K)). Qed.
Lemma nodup_groups : NoDup (sgroups op ++ gnames op).
Proof using K Hn Hd.
  unfold op. rewrite (oo_sg o K), (oo_gn o K). unfold implicit_inputs.
  apply nodupb_spec. destruct (oc_fixed o); reflexivity.
Qed.
Lemma nvs_eq : nvs = (d + group_size op "inputs" + d + group_size op "con_outputs")%nat.
Proof using K Hn Hd.
  unfold nvs, num_var_stage, group_sizes, op. rewrite (oo_sg o K). simpl. unfold d, num_states, group_size at 3. rewrite (oo_d o K). unfold group_size. lia.
Qed.
Lemma nvs_pos : (0 < nvs)%nat.
Proof using K Hn Hd. rewrite nvs_eq. unfold d. lia. Qed.
Lemma sgS : nth_error (sgroups op) 0 = Some "states".
Proof using K Hn Hd. unfold op. rewrite (oo_sg o K). reflexivity. Qed.
Lemma sgD : nth_error (sgroups op) 2 = Some "states_dot".
Proof using K Hn Hd. unfold op. rewrite (oo_sg o K). reflexivity. Qed.
Lemma offS_eq : off_of op 0 = offS.
Proof using K Hn Hd. reflexivity. Qed.
Lemma offD_eq : off_of op 2 = offD.
Proof using K Hn Hd. unfold off_of, group_sizes, op. rewrite (oo_sg o K). unfold offD. simpl. unfold d, num_states, op. lia. Qed.
Lemma gsD : group_size op "states_dot" = d.
Proof using K Hn Hd. unfold d, num_states, group_size, op. now rewrite (oo_d o K). Qed.
Lemma nsS : num_stages op = (n * (m - 1) + 1)%nat.
Proof using K Hn Hd. reflexivity. Qed.

Lemma stage_lt : forall i j, (i < n)%nat -> (j < m)%nat -> (i * (m - 1) + j < num_stages op)%nat.
Proof using K Hn Hd. pose proof m2. intros. rewrite nsS. nia. Qed.
Lemma idx_lt : forall e s, (e < nvs)%nat -> (s < num_stages op)%nat -> (e + s * nvs < isc)%nat.
Proof using K Hn Hd. intros e s He Hs. unfold isc, num_all_stage_var. fold nvs. assert ((s + 1) * nvs <= num_stages op * nvs)%nat by (apply Nat.mul_le_mono_r; lia). lia. Qed.
Lemma ia_lt : forall i j c, (i < n)%nat -> (j < m)%nat -> (c < d)%nat -> (ia i j c < isc)%nat.
Proof using K Hn Hd. intros. unfold ia. apply idx_lt; [unfold offS; rewrite nvs_eq; lia | now apply stage_lt]. Qed.
Lemma ib_lt : forall i j c, (i < n)%nat -> (j < m)%nat -> (c < d)%nat -> (ib i j c < isc)%nat.
Proof using K Hn Hd. intros. unfold ib. apply idx_lt; [unfold offD; rewrite nvs_eq; lia | now apply stage_lt]. Qed.

Lemma index_scale : oc_fixed o = None -> index_at op "global" "mesh_scale" 0 = Ok isc /\ has_scale o = true /\ num_dec op = S isc.
Proof using K Hn Hd.
  intro E. unfold index_at, has_scale, num_dec, num_global_var, op. rewrite (oo_gn o K), E. simpl. unfold isc, op. rewrite Nat.add_0_r, Nat.add_1_r. auto.
Qed.
Lemma no_scale : forall s, oc_fixed o = Some s -> has_scale o = false /\ num_dec op = isc.
Proof using K Hn Hd. intros s E. unfold has_scale, num_dec, num_global_var, op. rewrite (oo_gn o K), E. simpl. unfold isc, op. rewrite Nat.add_0_r. auto. Qed.

Lemma scale_ok : forall x, List.length x = num_dec op -> get_mesh_scale o x = Ok (scl x).
Proof using K Hn Hd.
  intros x L. unfold get_mesh_scale, scl. destruct (oc_fixed o) as [s|] eqn:E; [reflexivity|].
  destruct (index_scale E) as (Ei & _ & En). unfold get_var. fold op. rewrite Ei. cbn [bind]. unfold array_get.
  rewrite nth_error_nth' with (d := 0) by lia. reflexivity.
Qed.

Lemma lens_comp : interval_lengths (oc_mesh o) = map len (seq 0 n).
Proof using K Hn Hd. unfold n, num_intervals. rewrite <- (oo_len o K). apply list_comp. Qed.

Lemma A_shape : List.length A = (m - 1)%nat /\ Forall (fun r => List.length r = m) A.
Proof using K Hn Hd. unfold m, op, A. rewrite (oo_m o K). apply (tr_A _ (oo_tr o K)). Qed.
Lemma B_shape : List.length B = (m - 1)%nat /\ Forall (fun r => List.length r = m) B.
Proof using K Hn Hd. unfold m, op, B. rewrite (oo_m o K). apply (tr_B _ (oo_tr o K)). Qed.

Lemma tensorS : forall x, List.length x = num_dec op -> get_interval_tensor op x "states" = Ok {| ncols := m; rows :=
    map (fun i => map (fun j => map (fun c => vget (ia i j c) x) (seq 0 d)) (seq 0 m)) (seq 0 n) |}.
Proof using K Hn Hd. intros x L. apply (tensor_comp op x "states" 0); auto using nodup_groups, sgS, nvs_pos, m2. Qed.
Lemma tensorD : forall x, List.length x = num_dec op -> get_interval_tensor op x "states_dot" = Ok {| ncols := m; rows :=
    map (fun i => map (fun j => map (fun c => vget (ib i j c) x) (seq 0 d)) (seq 0 m)) (seq 0 n) |}.
Proof using K Hn Hd.
  intros x L. rewrite (tensor_comp op x "states_dot" 2); auto using nodup_groups, sgD, nvs_pos, m2. rewrite gsD, offD_eq. reflexivity.
Qed.

(** the constraint vector as a comprehension over (interval, row, state) *)
Definition con_list (x : list R) : list R :=
  concat (map (fun i => concat (map (fun l => map (fun c => Fdef i l c x) (seq 0 d)) (seq 0 (m - 1)))) (seq 0 n)).

Lemma cons_comp : forall x, List.length x = num_dec op -> continuity_constraints o x = Ok (con_list x).
Proof using K Hn Hd.
  intros x L. unfold continuity_constraints. rewrite scale_ok by assumption. cbn [bind]. fold op. rewrite tensorS, tensorD by assumption.
  cbn [bind rows]. unfold phys_lengths. rewrite lens_comp. rewrite !map_length, !seq_length, Nat.eqb_refl. cbn [negb].
  f_equal. rewrite map_map, !map2_comp. unfold con_list. rewrite map_map. f_equal. apply map_seq_in. intros i Hi. f_equal.
  fold A B d. destruct A_shape as [LA FA]. destruct B_shape as [LB FB].
  rewrite mscale_comp, !mmul_comp by assumption. rewrite LA, LB, msub_comp. reflexivity.
Qed.

Lemma con_list_len : forall x, List.length (con_list x) = (n * ((m - 1) * d))%nat.
Proof using K Hn Hd.
  intro x. unfold con_list. rewrite (length_concat_k _ ((m - 1) * d)).
  - now rewrite map_length, seq_length.
  - apply Forall_map, Forall_forall. intros i _. rewrite (length_concat_k _ d).
    + now rewrite map_length, seq_length.
    + apply Forall_map, Forall_forall. intros l _. now rewrite map_length, seq_length.
Qed.
Lemma con_list_nth : forall x i l c, (i < n)%nat -> (l < m - 1)%nat -> (c < d)%nat ->
  vget (i * ((m - 1) * d) + (l * d + c)) (con_list x) = Fdef i l c x.
Proof using K Hn Hd.
  intros x i l c Hi Hl Hc. unfold vget, con_list. rewrite (nth_concat_const _ ((m - 1) * d)).
  - rewrite nth_comp by assumption. rewrite (nth_concat_const _ d).
    + rewrite nth_comp by assumption. now rewrite nth_comp.
    + apply Forall_map, Forall_forall. intros a _. now rewrite map_length, seq_length.
    + now rewrite map_length, seq_length.
    + assumption.
  - apply Forall_map, Forall_forall. intros a _. rewrite (length_concat_k _ d); [now rewrite map_length, seq_length|].
    apply Forall_map, Forall_forall. intros b _. now rewrite map_length, seq_length.
  - now rewrite map_length, seq_length.
  - nia.
Qed.
End Ocp.
