(** C35: constraints convolved over the stages. *)
From Verif Require Import Base RBase UtilsModel UtilsProofs UtilsProofs2 NlpModel NlpProofs NlpProofs2 NlpSpec NlpProps CollocProofs OcpProofs2 OcpProofs3 ConvModel ConvSpec.

Lemma tri_shift_cols : forall o rs cs vs i j, tri rs (map (fun c => (c + o)%nat) cs) vs i j = if Nat.leb o j then tri rs cs vs i (j - o) else 0.
Proof.
  intros o rs; induction rs as [|r rs IH]; intros [|c cs] [|v vs] i j; simpl; try (destruct (Nat.leb o j); reflexivity).
  rewrite IH. destruct (Nat.leb_spec o j).
  - assert (Nat.eqb (c + o) j = Nat.eqb c (j - o)) as -> by (destruct (Nat.eqb_spec (c + o) j), (Nat.eqb_spec c (j - o)); lia || reflexivity). reflexivity.
  - assert (Nat.eqb (c + o) j = false) as -> by (apply Nat.eqb_neq; lia). rewrite andb_false_r. lra.
Qed.
(** a function of a window *)
Lemma window_upd_out : forall s k q t (x : list R), (q < k * s \/ k * s + s <= q)%nat -> firstn s (skipn (k * s) (upd q t x)) = firstn s (skipn (k * s) x).
Proof.
  intros s k q t x H. apply list_eq_nth with (d := 0).
  - rewrite !firstn_length, !skipn_length, upd_length. reflexivity.
  - intros i Hi. rewrite firstn_length, skipn_length, upd_length in Hi. change (vget i (firstn s (skipn (k * s) (upd q t x))) = vget i (firstn s (skipn (k * s) x))). rewrite !firstn_vget by lia. rewrite !skipn_vget. rewrite vget_upd_other by lia. reflexivity.
Qed.
Lemma window_upd_in : forall s k q t (x : list R), (k * s <= q < k * s + s)%nat -> firstn s (skipn (k * s) (upd q t x)) = upd (q - k * s) t (firstn s (skipn (k * s) x)).
Proof.
  intros s k q t x H. apply list_eq_nth with (d := 0).
  - rewrite upd_length, !firstn_length, !skipn_length, upd_length. reflexivity.
  - intros i Hi. rewrite firstn_length, skipn_length, upd_length in Hi. change (vget i (firstn s (skipn (k * s) (upd q t x))) = vget i (upd (q - k * s) t (firstn s (skipn (k * s) x)))). rewrite firstn_vget by lia. rewrite skipn_vget.
    destruct (Nat.eq_dec i (q - k * s)) as [->|Hne].
    + replace (k * s + (q - k * s))%nat with q by lia. rewrite !vget_upd_same; [reflexivity|rewrite firstn_length, skipn_length; lia|lia].
    + rewrite vget_upd_other by lia. rewrite vget_upd_other by assumption. rewrite firstn_vget by lia. now rewrite skipn_vget.
Qed.
Lemma pderiv_window : forall (F : list R -> R) s k x q d, (q < List.length x)%nat -> (List.length x >= k * s + s)%nat ->
  ((k * s <= q < k * s + s)%nat -> pderiv F (firstn s (skipn (k * s) x)) (q - k * s) d) -> ((q < k * s \/ k * s + s <= q)%nat -> d = 0) ->
  pderiv (fun y => F (firstn s (skipn (k * s) y))) x q d.
Proof.
  intros F s k x q d Hq L H1 H2. unfold pderiv in *. destruct (Nat.lt_ge_cases q (k * s)) as [Hlt|Hge].
  - rewrite (H2 (or_introl Hlt)). apply dlim_ext with (f := fun _ => F (firstn s (skipn (k * s) x))); [|apply dlim_const]. intro t. rewrite window_upd_out; [reflexivity|now left].
  - destruct (Nat.lt_ge_cases q (k * s + s)) as [Hin|Hout].
    + specialize (H1 (conj Hge Hin)). rewrite firstn_vget in H1 by lia. rewrite skipn_vget in H1. replace (k * s + (q - k * s))%nat with q in H1 by lia.
      apply dlim_ext with (2 := H1). intro t. now rewrite window_upd_in.
    + rewrite (H2 (or_intror Hout)). apply dlim_ext with (f := fun _ => F (firstn s (skipn (k * s) x))); [|apply dlim_const]. intro t. rewrite window_upd_out; [reflexivity|now right].
Qed.

Section D.
Variable op : dvo.
Let s := num_var_stage op.
Let n := num_stages op.
Lemma n_pos : (0 < n)%nat.
Proof. apply num_stages_pos. Qed.
Lemma nall : num_all_stage_var op = (n * s)%nat.
Proof. unfold num_all_stage_var, n, s. lia. Qed.
Lemma ndec_ge : (n * s <= num_dec op)%nat.
Proof. unfold num_dec. rewrite nall. lia. Qed.
Lemma window_of_firstn : forall k (x : list R), (k < n)%nat -> firstn s (skipn (k * s) (firstn (n * s) x)) = stage_window op k x.
Proof.
  intros k x Hk. unfold stage_window. fold s. rewrite skipn_firstn_comm, firstn_firstn. f_equal. nia.
Qed.
Lemma mapM_ok : forall A (g : nat -> result (list A)) h m, (forall i, (i < m)%nat -> g i = Ok (h i)) -> mapped m g = Ok (concat (map h (seq 0 m))).
Proof.
  intros A g h m H. unfold mapped. assert (forall i, In i (seq 0 m) -> g i = Ok (h i)) as H' by (intros i Hi; apply in_seq in Hi; apply H; lia). assert (mapM g (seq 0 m) = Ok (map h (seq 0 m))) as ->; [|reflexivity].
  revert H'. generalize (seq 0 m) as l. induction l as [|i r IH]; intro H'; [reflexivity|]. cbn [mapM map]. rewrite H' by now left. rewrite IH by (intros; apply H'; now right). reflexivity.
Qed.
Lemma nth_win : forall k (x : list R), (k < n)%nat -> nth k (map (fun k => stage_window op k x) (seq 0 n)) [] = stage_window op k x.
Proof. intros k x Hk. rewrite nth_indep with (d' := stage_window op 0 x) by (now rewrite map_length, seq_length). rewrite (map_nth (fun k => stage_window op k x)). now rewrite seq_nth. Qed.
Lemma win_len : forall k x, List.length x = num_dec op -> (k < n)%nat -> List.length (stage_window op k x) = s.
Proof. intros k x L Hk. unfold stage_window. rewrite firstn_length, skipn_length. pose proof ndec_ge. fold s. nia. Qed.
End D.

Section C.
Context {P : Type}.
Variables (u : unitp P) (op : dvo) (nmesh : list R) (scale_fn : list R -> R) (p : P).
Hypothesis Hw : u_nin u = num_var_stage op.
Hypothesis Hs : (0 < num_var_stage op)%nat.
Hypothesis Hm : List.length nmesh = num_stages op.
Let s := num_var_stage op.
Let n := num_stages op.
Definition mp (k : nat) (x : list R) : R := vget k nmesh * scale_fn x.

Lemma transform_ok : forall x, List.length x = num_dec op -> transform_inputs u op x = Ok {| ncols := s; rows := map (fun k => stage_window op k x) (seq 0 n) |}.
Proof using Hw Hs Hm scale_fn p.
  intros x L. unfold transform_inputs. rewrite Hw, nall. pose proof (n_pos op) as Hn. pose proof (ndec_ge op) as Hd. fold n s in Hn, Hd |- *. rewrite (conv_ok _ _ _ _ (n - 1)); [|assumption|lia|rewrite firstn_length; nia].
  f_equal. f_equal. replace (S (n - 1)) with n by lia. unfold windows. apply map_ext_in. intros k Hk. apply in_seq in Hk. apply (window_of_firstn op k x). fold n. lia.
Qed.
Lemma mesh_ok : forall x k, (k < n)%nat -> lookup_idx (get_mesh nmesh scale_fn x) k = Ok (mp k x).
Proof using Hw Hs Hm scale_fn p.
  intros x k Hk. unfold lookup_idx, get_mesh, mp. rewrite nth_error_map. rewrite (nth_error_nth' _ 0) by (unfold n in *; lia). reflexivity.
Qed.

Lemma constraints_eq : forall x, List.length x = num_dec op -> conv_constraints u op nmesh scale_fn p x = Ok (concat (map (fun k => u_f u (stage_window op k x) (mp k x) p) (seq 0 n))).
Proof using Hw Hs Hm scale_fn p.
  intros x L. unfold conv_constraints. rewrite transform_ok by assumption. cbn [bind rows]. rewrite map_length, seq_length. apply (mapM_ok op). intros i Hi. rewrite mesh_ok by assumption. cbn [bind]. now rewrite nth_win.
Qed.
Lemma jacobian_eq : forall x, List.length x = num_dec op -> conv_jacobian u op nmesh scale_fn p x = Ok (concat (map (fun k => u_j u (stage_window op k x) (mp k x) p) (seq 0 n))).
Proof using Hw Hs Hm scale_fn p.
  intros x L. unfold conv_jacobian. rewrite transform_ok by assumption. cbn [bind rows]. rewrite map_length, seq_length. apply (mapM_ok op). intros i Hi. rewrite mesh_ok by assumption. cbn [bind]. now rewrite nth_win.
Qed.
Definition lam_k (k : nat) (lam : list R) : list R := firstn (u_ncon u) (skipn (k * u_ncon u) lam).
Lemma hessian_eq : forall x lam, List.length x = num_dec op -> List.length lam = (n * u_ncon u)%nat ->
  conv_hessian u op nmesh scale_fn p x lam = Ok (concat (map (fun k => u_h u (stage_window op k x) (lam_k k lam) (mp k x) p) (seq 0 n))).
Proof using Hw Hs Hm scale_fn p.
  intros x lam L Ll. unfold conv_hessian. rewrite transform_ok by assumption. cbn [bind rows]. fold n. rewrite Ll, Nat.eqb_refl. cbn [negb]. rewrite map_length, seq_length. apply (mapM_ok op). intros i Hi. rewrite mesh_ok by assumption.
  unfold lookup_idx. rewrite chunks_seq, nth_error_map, (nth_error_nth' _ 0%nat) by (rewrite seq_length; lia). rewrite seq_nth by lia. cbn [option_map bind Nat.add]. now rewrite nth_win.
Qed.
End C.

(** block k of the constraint vector is the unit constraint on the variables and the mesh point of stage k *)
Theorem C35_constraints : forall P (u : unitp P) op nmesh scale_fn p x, u_nin u = num_var_stage op -> (0 < num_var_stage op)%nat -> List.length nmesh = num_stages op -> List.length x = num_dec op ->
  (forall x m, List.length x = u_nin u -> List.length (u_f u x m p) = u_ncon u) ->
  exists c, conv_constraints u op nmesh scale_fn p x = Ok c /\ List.length c = (num_stages op * u_ncon u)%nat /\
    forall k i, (k < num_stages op)%nat -> (i < u_ncon u)%nat -> nth_error c (k * u_ncon u + i) = nth_error (u_f u (stage_window op k x) (vget k nmesh * scale_fn x) p) i.
Proof.
  intros P u op nmesh scale_fn p x Hw Hs Hm L Hf. eexists. split; [now apply constraints_eq|].
  assert (Forall (fun v => List.length v = u_ncon u) (map (fun k => u_f u (stage_window op k x) (mp nmesh scale_fn k x) p) (seq 0 (num_stages op)))) as F.
  { apply Forall_forall. intros v Hv. apply in_map_iff in Hv. destruct Hv as (k & <- & Hk). apply in_seq in Hk. apply Hf. rewrite Hw. apply win_len; [assumption|lia]. }
  split; [rewrite (length_concat_const _ _ _ F), map_length, seq_length; reflexivity|]. intros k i Hk Hi.
  pose proof (concat_chunks _ _ _ F) as CC. rewrite map_length, seq_length in CC. rewrite chunks_seq in CC. set (c := concat _) in *.
  assert (firstn (u_ncon u) (skipn (k * u_ncon u) c) = u_f u (stage_window op k x) (mp nmesh scale_fn k x) p) as E.
  { assert (nth_error (map (fun i => firstn (u_ncon u) (skipn (i * u_ncon u) c)) (seq 0 (num_stages op))) k = nth_error (map (fun k => u_f u (stage_window op k x) (mp nmesh scale_fn k x) p) (seq 0 (num_stages op))) k) as EE by now rewrite CC.
    rewrite !nth_error_map, (nth_error_nth' _ 0%nat), seq_nth in EE by (rewrite ?seq_length; lia). injection EE as EE. exact EE. }
  unfold mp in E. rewrite <- E. clear E. clearbody c. rewrite <- (firstn_skipn (k * u_ncon u) c) at 1. destruct (Nat.le_gt_cases (k * u_ncon u) (List.length c)) as [Hle|Hgt].
  - rewrite nth_error_app2; rewrite firstn_length_le by assumption; [|lia]. replace (k * u_ncon u + i - k * u_ncon u)%nat with i by lia. revert Hi. generalize (skipn (k * u_ncon u) c) as r. generalize (u_ncon u) as m. clear. intros m r Hi. revert m i Hi. induction r as [|a r IH]; intros [|m] [|i] Hi; simpl; try lia; auto. apply IH. lia.
  - rewrite (skipn_all2 c) by lia. rewrite app_nil_r, firstn_nil. rewrite !(proj2 (nth_error_None _ _)); [reflexivity|simpl; lia|rewrite firstn_length; lia].
Qed.
Print Assumptions C35_constraints.

(** what is rejected: a multiplier vector of the wrong length is a ValueError *)
Theorem C35_multipliers_checked : forall P (u : unitp P) op nmesh scale_fn p x lam, u_nin u = num_var_stage op -> (0 < num_var_stage op)%nat -> List.length nmesh = num_stages op -> List.length x = num_dec op ->
  List.length lam <> (num_stages op * u_ncon u)%nat -> conv_hessian u op nmesh scale_fn p x lam = Raise ValueError.
Proof.
  intros P u op nmesh scale_fn p x lam Hw Hs Hm L H. unfold conv_hessian. rewrite (transform_ok u op nmesh scale_fn p Hw Hs Hm x L). cbn [bind].
  replace (Nat.eqb (num_stages op * u_ncon u) (List.length lam)) with false by (symmetry; apply Nat.eqb_neq; congruence). reflexivity.
Qed.
Print Assumptions C35_multipliers_checked.

Lemma offset_concat : forall rs cs ro co n, (0 < n)%nat -> create_offset_structure rs cs ro co n =
  Ok (concat (map (fun k => map (fun r => (r + k * ro)%nat) rs) (seq 0 n)), concat (map (fun k => map (fun c => (c + k * co)%nat) cs) (seq 0 n))).
Proof. intros rs cs ro co n H. unfold create_offset_structure. destruct (Nat.eqb_spec n 0); [lia|]. now rewrite !flat_map_concat_map. Qed.
Lemma tri_block : forall rs cs vs ro co k i q, tri (map (fun r => (r + k * ro)%nat) rs) (map (fun c => (c + k * co)%nat) cs) vs i q =
  if (Nat.leb (k * ro) i && Nat.leb (k * co) q)%bool then tri rs cs vs (i - k * ro) (q - k * co) else 0.
Proof.
  intros rs cs vs ro co k i q. rewrite tri_shift_rows, tri_shift_cols. destruct (Nat.leb (k * ro) i), (Nat.leb (k * co) q); reflexivity.
Qed.
Lemma pderiv_gradient_unique : forall n f g g', is_gradient n f g -> is_gradient n f g' -> forall x j, List.length x = n -> (j < n)%nat -> g x j = g' x j.
Proof. intros n f g g' H H' x j L Hj. eapply pderiv_unique; [apply H|apply H']; assumption. Qed.

Section D.
Context {P : Type}.
Variables (u : unitp P) (op : dvo) (nmesh : list R) (scale_fn : list R -> R) (p : P).
Hypothesis Hw : u_nin u = num_var_stage op.
Hypothesis Hs : (0 < num_var_stage op)%nat.
Hypothesis Hm : List.length nmesh = num_stages op.
Hypothesis Sh : unit_shapes u.
Hypothesis MF : mesh_free u scale_fn.
Let s := num_var_stage op.
Let n := num_stages op.
Let nc := u_ncon u.
Let f (x : list R) := ok_or_nil (conv_constraints u op nmesh scale_fn p x).
Lemma f_eq : forall x, List.length x = num_dec op -> f x = concat (map (fun k => u_f u (stage_window op k x) (mp nmesh scale_fn k x) p) (seq 0 n)).
Proof using Hw Hs Hm Sh MF p. intros x L. unfold f. now rewrite constraints_eq. Qed.
Lemma f_frozen : forall k x y, u_f u y (mp nmesh scale_fn k x) p = u_f u y (mp nmesh scale_fn k (stage_window op k x)) p.
Proof using Hw Hs Hm Sh MF p. intros k x y. destruct MF as [H|H]; [|apply H]. unfold mp. now rewrite (H x (stage_window op k x)). Qed.
Lemma f_frozen2 : forall k x x' y, u_f u y (mp nmesh scale_fn k x) p = u_f u y (mp nmesh scale_fn k x') p.
Proof using Hw Hs Hm Sh MF p. intros k x x' y. destruct MF as [H|H]; [|apply H]. unfold mp. now rewrite (H x x'). Qed.
Lemma wl : forall k x, List.length x = num_dec op -> (k < n)%nat -> List.length (stage_window op k x) = u_nin u.
Proof using Hw Hs Hm Sh MF p. intros k x L Hk. rewrite Hw. now apply win_len. Qed.
Lemma enough : forall k, (k < n)%nat -> (k * s + s <= num_dec op)%nat.
Proof using Hw Hs Hm Sh MF p. intros k Hk. pose proof (ndec_ge op) as H. fold n s in H. nia. Qed.

Lemma conv_jacobian_exact : unit_jacobian u -> exists js hs, conv_structs u op = Ok (js, hs) /\
  is_jacobian (num_dec op) (n * nc) f (fun x => tri (fst js) (snd js) (ok_or_nil (conv_jacobian u op nmesh scale_fn p x))).
Proof using Hw Hs Hm Sh MF p.
  intro UJ. destruct Sh as (S1 & S2 & S3 & S4 & S5 & S6 & S7 & S8 & S9). unfold conv_structs. rewrite !offset_concat by apply num_stages_pos. cbn [bind]. eexists. eexists. split; [reflexivity|]. cbn [fst snd]. fold n s nc.
  intros x r q L Hr Hq. assert (nc <> 0)%nat as Hnc by (intro E; rewrite E in Hr; lia). set (k := (r / nc)%nat). set (i := (r mod nc)%nat).
  assert (r = k * nc + i)%nat as Er by (unfold k, i; rewrite Nat.mul_comm; apply Nat.div_mod; assumption). assert (i < nc)%nat as Hi by (apply Nat.mod_upper_bound; assumption). assert (k < n)%nat as Hk by (apply Nat.div_lt_upper_bound; lia).
  assert (forall y, List.length y = num_dec op -> vget r (f y) = vget i (u_f u (stage_window op k y) (mp nmesh scale_fn k x) p)) as FE.
  { intros y Ly. destruct (C35_constraints P u op nmesh scale_fn p y Hw Hs Hm Ly ltac:(intros; now apply S1)) as (c & Ec & Lc & Hc). unfold f. rewrite Ec. cbn [ok_or_nil]. rewrite (f_frozen2 k x y). unfold vget at 1 2. specialize (Hc k i Hk Hi). fold nc in Hc. rewrite <- Er in Hc. change (vget k nmesh * scale_fn y) with (mp nmesh scale_fn k y) in Hc.
    destruct (nth_error c r) as [v|] eqn:Ev; [|apply nth_error_None in Ev; rewrite Lc in Ev; fold n nc in Ev; lia]. rewrite (nth_error_nth _ _ _ Ev). symmetry. apply nth_error_nth. now rewrite <- Hc. }
  eapply pderiv_ext_len; [intros y Ly; symmetry; apply FE; congruence|].
  rewrite (jacobian_eq u op nmesh scale_fn p Hw Hs Hm x L). cbn [ok_or_nil]. fold n.
  rewrite (tri_cmap nat (fun k => map (fun r0 => (r0 + k * nc)%nat) (fst (u_js u))) (fun k => map (fun c => (c + k * s)%nat) (snd (u_js u))) (fun k => u_j u (stage_window op k x) (mp nmesh scale_fn k x) p)).
  2:{ intros k' Hk'. apply in_seq in Hk'. rewrite !map_length. split; [assumption|]. symmetry. apply S2. apply wl; [assumption|lia]. }
  rewrite (rsum_single_in _ k n Hk).
  - rewrite tri_block. replace (Nat.leb (k * nc) r) with true by (symmetry; apply Nat.leb_le; lia). replace (r - k * nc)%nat with i by lia. cbn [andb].
    apply (pderiv_window (fun w => vget i (u_f u w (mp nmesh scale_fn k x) p)) s k x q); [congruence|rewrite L; now apply enough| |].
    + intros Hin. replace (Nat.leb (k * s) q) with true by (symmetry; apply Nat.leb_le; lia). apply (UJ (mp nmesh scale_fn k x) p); [apply (wl k x L Hk)|assumption|rewrite Hw; fold s; lia].
    + intros Hout. destruct (Nat.leb_spec (k * s) q); [|reflexivity]. apply tri_zero_col. apply Forall_forall. intros c Hc. rewrite Forall_forall in S7. specialize (S7 c Hc). rewrite Hw in S7. fold s in S7. lia.
  - intros k' Hk' Hne. rewrite tri_block. destruct (Nat.leb_spec (k' * nc) r); cbn [andb]; [|reflexivity]. destruct (Nat.leb (k' * s) q); [|reflexivity]. apply tri_zero_row. apply Forall_forall. intros r0 Hr0. rewrite Forall_forall in S6. specialize (S6 r0 Hr0). fold nc in S6. nia.
Qed.

Lemma conv_hessian_exact : forall T lam, shift_ok T -> unit_hessian T u -> List.length lam = (n * nc)%nat -> exists js hs, conv_structs u op = Ok (js, hs) /\
  is_hessian_on T (num_dec op) (fun x => vdot lam (f x)) (fun x => tri (fst hs) (snd hs) (ok_or_nil (conv_hessian u op nmesh scale_fn p x lam))).
Proof using Hw Hs Hm Sh MF p.
  intros T lam HT UH Ll. destruct Sh as (S1 & S2 & S3 & S4 & S5 & S6 & S7 & S8 & S9). unfold conv_structs. rewrite !offset_concat by apply num_stages_pos. cbn [bind]. eexists. eexists. split; [reflexivity|]. cbn [fst snd]. fold n s nc.
  assert (forall k, (k < n)%nat -> List.length (lam_k u k lam) = nc) as LK by (intros k Hk; unfold lam_k; fold nc; rewrite firstn_length, skipn_length; nia).
  assert (forall k, In k (seq 0 n) -> is_hessian_on T (num_dec op) (fun x => vdot (lam_k u k lam) (u_f u (stage_window op k x) (mp nmesh scale_fn k x) p))
     (fun x i j => tri (map (fun r => (r + k * s)%nat) (fst (u_hs u))) (map (fun c => (c + k * s)%nat) (snd (u_hs u))) (u_h u (stage_window op k x) (lam_k u k lam) (mp nmesh scale_fn k x) p) i j)) as HK.
  { intros k Hk. apply in_seq in Hk. assert (k < n)%nat as Hk' by lia. set (m0 := mp nmesh scale_fn k (repeat 0 (num_dec op))). destruct (UH (lam_k u k lam) m0 p (LK k Hk')) as (g & G1 & _).
    assert (forall m y, (exists x, m = mp nmesh scale_fn k x) -> u_f u y m p = u_f u y m0 p) as EF by (intros m y [x ->]; apply f_frozen2).
    exists (fun x j => if (Nat.leb (k * s) j && Nat.ltb j (k * s + s))%bool then g (stage_window op k x) (j - k * s)%nat else 0). split.
    - intros x j L Hj. eapply pderiv_ext_len with (f := fun y => vdot (lam_k u k lam) (u_f u (stage_window op k y) m0 p)); [intros y Ly; now rewrite (EF (mp nmesh scale_fn k y)) by eauto|].
      apply (pderiv_window (fun w => vdot (lam_k u k lam) (u_f u w m0 p)) s k x j); [congruence|rewrite L; now apply enough| |].
      + intros Hin. replace (Nat.leb (k * s) j) with true by (symmetry; apply Nat.leb_le; lia). replace (Nat.ltb j (k * s + s)) with true by (symmetry; apply Nat.ltb_lt; lia). cbn [andb]. apply G1; [now apply (wl k x L)|rewrite Hw; fold s; lia].
      + intros Hout. destruct (Nat.leb_spec (k * s) j), (Nat.ltb_spec j (k * s + s)); try reflexivity. lia.
    - intros x j q L Hj Hq HP. rewrite tri_block. destruct (Nat.leb_spec (k * s) j) as [J1|J1]; cbn [andb]; [|apply pderiv_const]. destruct (Nat.ltb_spec j (k * s + s)) as [J2|J2].
      + apply (pderiv_window (fun w => g w (j - k * s)%nat) s k x q); [congruence|rewrite L; now apply enough| |].
        * intros Hin. replace (Nat.leb (k * s) q) with true by (symmetry; apply Nat.leb_le; lia).
          destruct (UH (lam_k u k lam) (mp nmesh scale_fn k x) p (LK k Hk')) as (g' & G1' & G2'). apply pderiv_ext_len with (f := fun y => g' y (j - k * s)%nat).
          { intros y Ly. rewrite (wl k x L Hk') in Ly || rewrite Ly || idtac. assert (List.length y = u_nin u) as Ly' by (rewrite <- (wl k x L Hk'); exact Ly || (rewrite <- Ly; reflexivity)).
            apply (pderiv_gradient_unique (u_nin u) (fun x0 => vdot (lam_k u k lam) (u_f u x0 m0 p)) g' g); [|assumption|assumption|rewrite Hw; fold s; lia]. intros z j' Lz Hj'. eapply pderiv_ext; [|apply G1'; assumption]. intro z'. cbn beta. now rewrite (EF (mp nmesh scale_fn k x)) by eauto. }
          apply G2'; [now apply (wl k x L)|rewrite Hw; fold s; lia|rewrite Hw; fold s; lia|]. apply (HT _ _ (k * s)%nat). replace (j - k * s + k * s)%nat with j by lia. replace (q - k * s + k * s)%nat with q by lia. assumption.
        * intros Hout. destruct (Nat.leb_spec (k * s) q); [|reflexivity]. apply tri_zero_col. apply Forall_forall. intros c Hc. rewrite Forall_forall in S9. specialize (S9 c Hc). rewrite Hw in S9. fold s in S9. lia.
      + eapply pderiv_eq; [|apply pderiv_const]. destruct (Nat.leb (k * s) q); [|reflexivity]. symmetry. apply tri_zero_row. apply Forall_forall. intros c Hc. rewrite Forall_forall in S8. specialize (S8 c Hc). rewrite Hw in S8. fold s in S8. lia. }
  eapply hess_on_ext; [| |exact (hess_on_sum nat T (num_dec op) _ _ (seq 0 n) HK)].
  - intros x L. cbn beta. rewrite f_eq by assumption. symmetry. rewrite (vdot_blocks nc); [reflexivity| |assumption]. intros i Hi. apply S1. now apply (wl i x L).
  - intros x i j L HP. cbn beta. rewrite (hessian_eq u op nmesh scale_fn p Hw Hs Hm x lam L Ll). cbn [ok_or_nil]. symmetry.
    apply (tri_cmap nat (fun k => map (fun r0 => (r0 + k * s)%nat) (fst (u_hs u))) (fun k => map (fun c => (c + k * s)%nat) (snd (u_hs u))) (fun k => u_h u (stage_window op k x) (lam_k u k lam) (mp nmesh scale_fn k x) p)).
    intros k' Hk'. apply in_seq in Hk'. rewrite !map_length. split; [assumption|]. symmetry. apply S3; [apply (wl k' x L); lia|apply LK; lia].
Qed.
End D.

Lemma conv_wf : forall P (u : unitp P) op nmesh scale_fn p, u_nin u = num_var_stage op -> (0 < num_var_stage op)%nat -> List.length nmesh = num_stages op -> unit_shapes u ->
  exists js hs c, conv_structs u op = Ok (js, hs) /\ make_conv u op nmesh scale_fn p = Ok c /\ con_wf c /\ c_jr c = fst js /\ c_jc c = snd js /\ c_hr c = fst hs /\ c_hc c = snd hs /\
    c_nin c = num_dec op /\ c_ncon c = (num_stages op * u_ncon u)%nat /\ c_f c = (fun x => ok_or_nil (conv_constraints u op nmesh scale_fn p x)) /\ c_j c = (fun x => ok_or_nil (conv_jacobian u op nmesh scale_fn p x)) /\
    c_h c = (fun x lam => ok_or_nil (conv_hessian u op nmesh scale_fn p x lam)).
Proof.
  intros P u op nmesh scale_fn p Hw Hs Hm (S1 & S2 & S3 & S4 & S5 & S6 & S7 & S8 & S9). unfold make_conv, conv_structs. rewrite !offset_concat by apply num_stages_pos. cbn [bind fst snd]. eexists. eexists. 
  assert (forall m k v, m * k <= num_dec op -> v < k -> forall i, i < m -> v + i * k < num_dec op)%nat as AR by (intros; nia).
  pose proof (ndec_ge op) as ND.
  assert (forall k (rs : list nat) m M, Forall (fun r => r < m)%nat rs -> (k * m <= M)%nat -> Forall (fun r => r < M)%nat (concat (map (fun i => map (fun r => (r + i * m)%nat) rs) (seq 0 k)))) as FC.
  { intros k rs m M F HM. apply Forall_forall. intros v Hv. apply in_concat in Hv. destruct Hv as (l & Hl & Hv). apply in_map_iff in Hl. destruct Hl as (i & <- & Hi). apply in_seq in Hi. apply in_map_iff in Hv. destruct Hv as (r & <- & Hr). rewrite Forall_forall in F. specialize (F r Hr). nia. }
  assert (forall k (rs : list nat) m, List.length (concat (map (fun i => map (fun r => (r + i * m)%nat) rs) (seq 0 k))) = (k * List.length rs)%nat) as LC.
  { intros k rs m. rewrite (length_concat_const _ (List.length rs)) by (apply Forall_forall; intros l Hl; apply in_map_iff in Hl; destruct Hl as (i & <- & _); apply map_length). now rewrite map_length, seq_length. }
  assert (forall (x : list R) (h : nat -> list R) (k : nat), (forall i, (i < num_stages op)%nat -> List.length (h i) = k) -> List.length x = num_dec op -> List.length (concat (map h (seq 0 (num_stages op)))) = (num_stages op * k)%nat) as LB.
  { intros x h k Hh L. rewrite (length_concat_const _ k) by (apply Forall_forall; intros l Hl; apply in_map_iff in Hl; destruct Hl as (i & <- & Hi); apply in_seq in Hi; apply Hh; lia). now rewrite map_length, seq_length. }
  assert (forall k x, List.length x = num_dec op -> (k < num_stages op)%nat -> List.length (stage_window op k x) = u_nin u) as WL by (intros k x L Hk; rewrite Hw; now apply win_len).
  unfold make_con. match goal with |- exists _, _ /\ bind (update_jac_scales ?c0) _ = _ /\ _ => set (c00 := c0) end.
  assert (con_wf c00) as W.
  { constructor; unfold c00; simpl.
    - now rewrite !LC, S4.
    - apply FC; [assumption|lia].
    - apply FC; [rewrite <- Hw; assumption|lia].
    - now rewrite !LC, S5.
    - apply FC; [rewrite <- Hw; assumption|lia].
    - apply FC; [rewrite <- Hw; assumption|lia].
    - intros x L. rewrite constraints_eq by assumption. cbn [ok_or_nil]. apply (LB x); [|assumption]. intros i Hi. apply S1. now apply WL.
    - intros x L. rewrite jacobian_eq by assumption. cbn [ok_or_nil]. rewrite LC. apply (LB x); [|assumption]. intros i Hi. apply S2. now apply WL.
    - intros x lam L Ll. rewrite hessian_eq by assumption. cbn [ok_or_nil]. rewrite LC. apply (LB x); [|assumption]. intros i Hi. apply S3; [now apply WL|]. unfold lam_k. rewrite firstn_length, skipn_length. nia. }
  rewrite (update_jac_ok c00 W) by apply repeat_length. cbn [bind].
  rewrite update_hess_ok; [|eapply con_wf_same; eauto|apply repeat_length].
  eexists. split; [reflexivity|]. split; [reflexivity|]. split; [eapply con_wf_same; eauto|]. repeat split; reflexivity.
Qed.

(** the object that is built, under every later setting of its input and constraint scales, has exact derivatives: the jacobian values with the declared
    structure (of the matrix that sums duplicates) and the hessian of the multiplier-weighted sum *)
Theorem C35_derivatives : forall P (u : unitp P) op nmesh scale_fn p T, u_nin u = num_var_stage op -> (0 < num_var_stage op)%nat -> List.length nmesh = num_stages op -> unit_shapes u -> mesh_free u scale_fn ->
  unit_jacobian u -> shift_ok T -> unit_hessian T u ->
  exists c0, make_conv u op nmesh scale_fn p = Ok c0 /\ c_nin c0 = num_dec op /\ c_ncon c0 = (num_stages op * u_ncon u)%nat /\
    is_jacobian (c_nin c0) (c_ncon c0) (c_f c0) (fun x => tri (c_jr c0) (c_jc c0) (c_j c0 x)) /\
    (forall lam, List.length lam = c_ncon c0 -> is_hessian_on T (c_nin c0) (fun x => vdot lam (c_f c0 x)) (fun x => tri (c_hr c0) (c_hc c0) (c_h c0 x lam))) /\
    forall ops c, Forall (sop_ok (c_nin c0) (c_ncon c0)) ops -> foldM apply_sop ops c0 = Ok c ->
      Forall (fun v => v <> 0) (last_in (ones (c_nin c0)) ops) -> Forall (fun v => v <> 0) (last_con (ones (c_ncon c0)) ops) ->
      is_jacobian (c_nin c0) (c_ncon c0) (con_constraints c) (fun x => tri (c_jr c) (c_jc c) (con_jacobian c x)) /\
      forall lam, List.length lam = c_ncon c0 -> is_hessian_on T (c_nin c0) (fun x => vdot lam (con_constraints c x)) (fun x => tri (c_hr c) (c_hc c) (con_hessian c x lam)).
Proof.
  intros P u op nmesh scale_fn p T Hw Hs Hm Sh MF UJ HT UH. destruct (conv_wf P u op nmesh scale_fn p Hw Hs Hm Sh) as (js & hs & c0 & ES & EC & W & E1 & E2 & E3 & E4 & E5 & E6 & E7 & E8 & E9).
  exists c0. split; [assumption|]. split; [assumption|]. split; [assumption|].
  assert (is_jacobian (c_nin c0) (c_ncon c0) (c_f c0) (fun x => tri (c_jr c0) (c_jc c0) (c_j c0 x))) as DJ.
  { destruct (conv_jacobian_exact u op nmesh scale_fn p Hw Hs Hm Sh MF UJ) as (js' & hs' & ES' & D). rewrite ES in ES'. injection ES' as <- <-. rewrite E1, E2, E5, E6, E7, E8. exact D. }
  assert (forall lam, List.length lam = c_ncon c0 -> is_hessian_on T (c_nin c0) (fun x => vdot lam (c_f c0 x)) (fun x => tri (c_hr c0) (c_hc c0) (c_h c0 x lam))) as DH.
  { intros lam Ll. rewrite E6 in Ll. destruct (conv_hessian_exact u op nmesh scale_fn p Hw Hs Hm Sh MF T lam HT UH Ll) as (js' & hs' & ES' & D). rewrite ES in ES'. injection ES' as <- <-. rewrite E3, E4, E5, E7, E9. exact D. }
  split; [exact DJ|]. split; [exact DH|]. intros ops c Hops Hrun Ni Nc. pose proof EC as EC'. unfold make_conv in EC'. rewrite ES in EC'. cbn [bind] in EC'. rewrite <- E5, <- E6, <- E7, <- E8, <- E9 in EC'.
  split.
  - exact (C14_scaled_jacobian _ _ _ _ _ _ _ c0 ops c EC' W Hops Hrun Ni Nc DJ).
  - intros lam Ll. apply (C14_scaled_hessian T _ _ _ _ _ _ _ c0 ops c lam EC' W Hops Hrun Ni Ll). intros l Hl. now apply DH.
Qed.
Print Assumptions C35_derivatives.

(** *** a concrete problem: two variables per stage, [x0 * x1 - m * p] at every stage, two intervals of two stages and one global variable *)
Definition ex_op : dvo := {| mvn := [("states", ["a"; "b"])]; sgroups := ["states"]; gnames := ["mesh_scale"]; nintervals := 2; nspi := 2 |}.
Definition ex_unit : unitp R := {| u_nin := 2; u_ncon := 1; u_f := fun x m p => [vget 0 x * vget 1 x - m * p]; u_j := fun x m p => [vget 1 x; vget 0 x]; u_h := fun x l m p => [vget 0 l];
  u_js := ([0; 0]%nat, [0; 1]%nat); u_hs := ([1%nat], [0%nat]) |}.
Definition lower (i j : nat) : Prop := (j <= i)%nat.
Example C35_nonvacuous : make_dvo [("states", ["a"; "b"])] 2 2 ["states"] ["mesh_scale"] = Ok ex_op /\ num_stages ex_op = 3%nat /\ num_dec ex_op = 7%nat /\ u_nin ex_unit = num_var_stage ex_op /\
  unit_shapes ex_unit /\ mesh_free ex_unit (fun _ => 5) /\ unit_jacobian ex_unit /\ shift_ok lower /\ unit_hessian lower ex_unit /\
  conv_constraints ex_unit ex_op [0; 1; 2] (fun _ => 5) 10 [1; 2; 3; 4; 5; 6; 7] = Ok [1 * 2 - 0 * 5 * 10; 3 * 4 - 1 * 5 * 10; 5 * 6 - 2 * 5 * 10] /\
  conv_structs ex_unit ex_op = Ok ([0; 0; 1; 1; 2; 2]%nat, [0; 1; 2; 3; 4; 5]%nat, ([1; 3; 5]%nat, [0; 2; 4]%nat)).
Proof.
  split; [reflexivity|]. split; [reflexivity|]. split; [reflexivity|]. split; [reflexivity|].
  split; [repeat split; try reflexivity; repeat constructor|].
  split; [left; reflexivity|].
  split.
  { intros m p x i j L Hi Hj. simpl in L, Hi, Hj. assert (i = 0)%nat as -> by lia. cbn [ex_unit u_f u_j u_js fst snd].
    apply pderiv_ext with (f := fun y => vget 0 y * vget 1 y + (- (m * p))); [intro y; cbn; unfold vget; cbn; lra|].
    eapply pderiv_eq; [|apply pderiv_plus; [apply pderiv_mult; [apply (pderiv_coord 0%nat); lia|apply (pderiv_coord 1%nat); lia]|apply pderiv_const]].
    destruct j as [|[|j]]; [| |lia]; cbn; lra. }
  split; [intros a b k H; unfold lower in *; lia|].
  split.
  { intros l m p Ll. exists (fun x j => vget 0 l * vget (1 - j) x). split.
    - intros x j L Hj. simpl in L, Hj, Ll. cbn [ex_unit u_f].
      apply pderiv_ext with (f := fun y => vget 0 l * (vget 0 y * vget 1 y + (- (m * p)))).
      { intro y. destruct l as [|l0 [|]]; try discriminate. cbn. unfold vget; cbn. lra. }
      eapply pderiv_eq; [|apply pderiv_scal; apply pderiv_plus; [apply pderiv_mult; [apply (pderiv_coord 0%nat); lia|apply (pderiv_coord 1%nat); lia]|apply pderiv_const]].
      destruct j as [|[|j]]; [| |lia]; cbn; lra.
    - intros x j k L Hj Hk HP. simpl in L, Hj, Hk. unfold lower in HP. cbn [ex_unit u_h u_hs fst snd].
      eapply pderiv_eq; [|apply pderiv_scal; apply pderiv_coord; lia].
      destruct j as [|[|j]]; [| |lia]; destruct k as [|[|k]]; try lia; cbn; lra. }
  split; reflexivity.
Qed.

(** *** findings *)
(** a unit problem that reads the mesh point, on a mesh whose scale is the last decision variable: the jacobian that is returned has nothing in the
    column of the mesh scale, although the constraint depends on it *)
Definition ex_mesh_unit : unitp unit := {| u_nin := 2; u_ncon := 1; u_f := fun x m _ => [m]; u_j := fun _ _ _ => []; u_h := fun _ _ _ _ => []; u_js := ([], []); u_hs := ([], []) |}.
Theorem C35_mesh_dependence_refuted : unit_shapes ex_mesh_unit /\ unit_jacobian ex_mesh_unit /\
  exists c0, make_conv ex_mesh_unit ex_op [0; 1; 2] (vget 6) tt = Ok c0 /\ ~ is_jacobian (c_nin c0) (c_ncon c0) (c_f c0) (fun x => tri (c_jr c0) (c_jc c0) (c_j c0 x)).
Proof.
  split; [repeat split; try reflexivity; repeat constructor|].
  split; [intros m p x i j L Hi Hj; cbn; apply pderiv_const|].
  eexists. split; [reflexivity|]. intro H. specialize (H (repeat 0 7) 1%nat 6%nat). cbn [c_nin c_ncon] in H.
  assert (pderiv (fun y => vget 1 (ok_or_nil (conv_constraints ex_mesh_unit ex_op [0; 1; 2] (vget 6) tt y))) (repeat 0 7) 6 1) as H1.
  { apply pderiv_ext_len with (f := vget 6).
    - intros y Ly. rewrite repeat_length in Ly. rewrite constraints_eq; [|reflexivity|cbn; lia|reflexivity|assumption]. cbn. unfold mp, vget. cbn. lra.
    - eapply pderiv_eq; [|apply (pderiv_coord 6%nat 6%nat); cbn; lia]. reflexivity. }
  specialize (H eq_refl (le_S _ _ (le_n _)) (le_n _)). pose proof (pderiv_unique _ _ _ _ _ H H1) as E. cbn in E. lra.
Qed.
Print Assumptions C35_mesh_dependence_refuted.
(** a unit problem over two consecutive stages (a window of twice the stage width) is accepted by the constructor, which declares one block of
    constraints per stage; the evaluation produces one block less *)
Definition ex_wide : unitp unit := {| u_nin := 4; u_ncon := 1; u_f := fun x m _ => [vget 2 x - vget 0 x]; u_j := fun _ _ _ => [-1; 1]; u_h := fun _ _ _ _ => []; u_js := ([0; 0]%nat, [0; 2]%nat); u_hs := ([], []) |}.
Theorem C35_overlap_refuted : exists c0, make_conv ex_wide ex_op [0; 1; 2] (fun _ => 1) tt = Ok c0 /\ c_ncon c0 = 3%nat /\
  forall x, List.length x = c_nin c0 -> List.length (c_f c0 x) = 2%nat.
Proof.
  eexists. split; [reflexivity|]. split; [reflexivity|]. intros x Lx. cbn in Lx.
  do 7 (destruct x as [|? x]; [discriminate|]). destruct x; [|discriminate]. reflexivity.
Qed.
Print Assumptions C35_overlap_refuted.
