From Verif Require Import Base TreeModel TreeProofs TreeProofs2 UtilsModel UtilsProofs.
From Coq Require Import ZifyBool ZifyNat.
Ltac Zify.zify_post_hook ::= Z.div_mod_to_equations.

Section Flat2.
Context {A : Type}.

Lemma dget_ddel_other : forall V k k2 (d : dict V), k <> k2 -> dget k2 (ddel k d) = dget k2 d.
Proof.
  intros V k k2 d Hne; induction d as [|[k' v'] r IH]; simpl; [reflexivity|].
  destruct (String.eqb_spec k k') as [<-|Hk].
  - destruct (String.eqb_spec k2 k); [congruence | reflexivity].
  - simpl. destruct (String.eqb k2 k'); auto.
Qed.

Lemma dget_fold_ddel : forall V names k (d : dict V), ~ In k names ->
  dget k (fold_left (fun d n => ddel n d) names d) = dget k d.
Proof.
  intros V names; induction names as [|n r IH]; intros k d H; simpl in *; [reflexivity|].
  rewrite IH by tauto. apply dget_ddel_other. intro; subst; tauto.
Qed.

Lemma dget_combine : forall V names (vs : list V) i n v, NoDup names ->
  nth_error names i = Some n -> nth_error vs i = Some v -> dget n (combine names vs) = Some v.
Proof.
  intros V names; induction names as [|a r IH]; intros vs i n v Hnd H1 H2; [destruct i; discriminate|].
  inversion Hnd; subst. destruct vs as [|w vs]; [destruct i; discriminate|].
  destruct i as [|i]; simpl in *.
  - inversion H1; inversion H2; subst. now rewrite String.eqb_refl.
  - destruct (String.eqb_spec n a) as [->|Hne].
    + exfalso. apply nth_error_In in H1. contradiction.
    + eapply IH; eauto.
Qed.

Lemma dget_app : forall V k (a b : dict V),
  dget k (a ++ b) = match dget k a with Some v => Some v | None => dget k b end.
Proof.
  intros V k a b; induction a as [|[k' v'] r IH]; simpl; [reflexivity|].
  destruct (String.eqb k k'); auto.
Qed.

Lemma dget_combine_notin : forall V k names (vs : list V), ~ In k names -> dget k (combine names vs) = None.
Proof.
  intros V k names; induction names as [|a r IH]; intros [|v vs] H; simpl in *; auto.
  destruct (String.eqb_spec k a); [subst; tauto|]. apply IH. tauto.
Qed.

(** the reshape step of unflatten *)
Lemma reshape_stage : forall op (x : list A), 0 < num_var_stage op -> num_all_stage_var op <= List.length x ->
  reshape2 (-1) (num_var_stage op) (firstn (num_all_stage_var op) x) =
  Ok {| ncols := num_var_stage op; rows := chunks (num_stages op) (num_var_stage op) (firstn (num_all_stage_var op) x) |}.
Proof.
  intros op x Hn Hl. unfold reshape2. rewrite Z.eqb_refl.
  destruct (Nat.eqb_spec (num_var_stage op) 0); [lia|].
  rewrite firstn_length_le by assumption. unfold num_all_stage_var.
  rewrite Nat.mod_mul by lia. rewrite Nat.eqb_refl. rewrite Nat.div_mul by lia. reflexivity.
Qed.

Lemma chunks_shaped : forall n k (l : list A), List.length l = n * k ->
  Forall (fun r => List.length r = k) (chunks n k l).
Proof.
  intros n; induction n as [|n IH]; intros k l H; simpl; constructor.
  - apply firstn_length_le. simpl in H. lia.
  - apply IH. rewrite skipn_length. simpl in H. lia.
Qed.

(** closed form of unflatten *)
Lemma unflatten_spec : forall op (x : list A), NoDup (sgroups op ++ gnames op) -> 0 < num_var_stage op ->
  List.length x = num_dec op ->
  unflatten_var op x = Ok (combine (sgroups op)
      (map FArr (split_groups op (chunks (num_stages op) (num_var_stage op) (firstn (num_all_stage_var op) x))))
    ++ combine (gnames op) (map FSc (skipn (num_all_stage_var op) x))).
Proof.
  intros op x Hnd Hnv Hl. unfold unflatten_var.
  rewrite reshape_stage by (auto; rewrite Hl; unfold num_dec; lia). cbn [bind rows].
  set (m := chunks _ _ _). 
  assert (sgroups op <> []) as Hne.
  { unfold num_var_stage, group_sizes in Hnv. destruct (sgroups op); [simpl in Hnv; lia | discriminate]. }
  assert (List.length (split_groups op m) = List.length (sgroups op)) as Hlg.
  { unfold split_groups. rewrite map_length, seq_length. destruct (sgroups op); [congruence | simpl; lia]. }
  apply NoDup_app_inv in Hnd as Hnd'. destruct Hnd' as (Hg & Hgl & Hdis).
  assert (List.length (skipn (num_all_stage_var op) x) = List.length (gnames op)) as Hsk.
  { rewrite skipn_length, Hl. unfold num_dec, num_global_var. lia. }
  rewrite dict_of_list_nodup by (rewrite combine_map_fst; [assumption | now rewrite map_length]).
  rewrite dupdate_app.
  - match goal with |- (if ?b then _ else _) = _ => replace b with true; [reflexivity|] end.
    symmetry. apply forallb_forall. intros n Hn. unfold dmem.
    match goal with |- match ?d with _ => _ end = true => destruct d eqn:E end; [reflexivity|].
    exfalso. apply dget_none in E. apply E. unfold keys. rewrite map_app.
    rewrite !combine_map_fst; [assumption | rewrite map_length; lia | rewrite map_length; lia].
  - unfold keys. rewrite map_app. rewrite !combine_map_fst; [assumption | rewrite map_length; lia | rewrite map_length; lia].
Qed.

Definition kw_ok (op : dvo) (kw : dict (field A)) : Prop :=
  (forall g, In g (sgroups op) -> exists a, dget g kw = Some (FArr a) /\ shaped (num_stages op) (group_size op g) a) /\
  (forall n, In n (gnames op) -> exists v, dget n kw = Some (FSc v)).

Lemma mapM_exists : forall X Y (f : X -> result Y) (P : X -> Y -> Prop) l,
  (forall x, In x l -> exists y, f x = Ok y /\ P x y) ->
  exists ys, mapM f l = Ok ys /\ Forall2 P l ys.
Proof.
  intros X Y f P l; induction l as [|a r IH]; intros H; simpl; [exists []; auto|].
  destruct (H a) as (y & E & Hy); [simpl; auto|].
  destruct IH as (ys & E2 & H2); [intros; apply H; simpl; auto|].
  exists (y :: ys). rewrite E, E2. auto.
Qed.

Lemma Forall2_flip : forall X Y (P : X -> Y -> Prop) l m, Forall2 P l m -> Forall2 (fun y x => P x y) m l.
Proof. intros X Y P l m H; induction H; constructor; auto. Qed.

Lemma Forall2_impl : forall X Y (P Q : X -> Y -> Prop) l m, (forall x y, P x y -> Q x y) ->
  Forall2 P l m -> Forall2 Q l m.
Proof. intros X Y P Q l m H H1; induction H1; constructor; auto. Qed.

Lemma Forall2_len : forall X Y (P : X -> Y -> Prop) l m, Forall2 P l m -> List.length l = List.length m.
Proof. intros X Y P l m H; induction H; simpl; auto. Qed.

Lemma flatten_spec : forall op kw, NoDup (sgroups op ++ gnames op) -> 0 < num_var_stage op -> kw_ok op kw ->
  exists gl arrs m, flatten_var op kw = Ok (concat m ++ gl) /\
    Forall2 (fun n v => dget n kw = Some (FSc v)) (gnames op) gl /\
    Forall2 (fun g a => dget g kw = Some (FArr a) /\ shaped (num_stages op) (group_size op g) a) (sgroups op) arrs /\
    List.length m = num_stages op /\ Forall (fun r => List.length r = num_var_stage op) m /\
    (forall i, i < num_stages op -> nth i m [] = concat (map (fun a => nth i a []) arrs)).
Proof.
  intros op kw Hnd Hnv [Hg Hn]. unfold flatten_var.
  destruct (mapM_exists _ _ (fun n => bind (lookup_err n kw) as_scalar)
     (fun n v => dget n kw = Some (FSc v)) (gnames op)) as (gl & E1 & F1).
  { intros n Hin. destruct (Hn n Hin) as [v Hv]. exists v. unfold lookup_err. rewrite Hv. auto. }
  rewrite E1. cbn [bind].
  apply NoDup_app_inv in Hnd as Hnd'. destruct Hnd' as (_ & _ & Hdis).
  destruct (mapM_exists _ _ (fun g => bind (lookup_err g (fold_left (fun d n => ddel n d) (gnames op) kw)) as_array)
     (fun g a => dget g kw = Some (FArr a) /\ shaped (num_stages op) (group_size op g) a) (sgroups op)) as (arrs & E2 & F2).
  { intros g Hin. destruct (Hg g Hin) as (a & Ha & Hs). exists a. unfold lookup_err.
    rewrite dget_fold_ddel by (apply Hdis; assumption). rewrite Ha. auto. }
  rewrite E2. cbn [bind].
  assert (sgroups op <> []) as Hne.
  { unfold num_var_stage, group_sizes in Hnv. destruct (sgroups op); [simpl in Hnv; lia | discriminate]. }
  destruct (hconcat_ok arrs (num_stages op)) as (m & E3 & Lm & Rm).
  { destruct arrs; [|discriminate]. inversion F2; congruence. }
  { clear -F2. induction F2 as [|? ? ? ? [_ [H _]]]; constructor; auto. }
  rewrite E3. cbn [bind]. exists gl, arrs, m. split; [reflexivity|]. split; [assumption|]. split; [assumption|].
  split; [assumption|]. split; [|assumption].
  apply Forall_forall. intros r Hr. apply In_nth with (d := []) in Hr. destruct Hr as (i & Hi & <-).
  rewrite Lm in Hi. rewrite Rm by assumption. rewrite length_concat_sum, map_map.
  unfold num_var_stage, group_sizes. rewrite (nsum_sum (map (group_size op) (sgroups op))). f_equal.
  clear -F2 Hi. induction F2 as [|g a gs arrs [_ H] _ IH]; simpl; [reflexivity|].
  f_equal; [eapply shaped_nth; eauto | assumption].
Qed.

Lemma unflatten_flatten : forall op kw, NoDup (sgroups op ++ gnames op) -> 0 < num_var_stage op -> kw_ok op kw ->
  exists x d, flatten_var op kw = Ok x /\ List.length x = num_dec op /\ unflatten_var op x = Ok d /\
    keys d = sgroups op ++ gnames op /\ (forall n, In n (sgroups op ++ gnames op) -> dget n d = dget n kw).
Proof.
  intros op kw Hnd Hnv Hkw.
  destruct (flatten_spec op kw Hnd Hnv Hkw) as (gl & arrs & m & Ef & Fg & Fa & Lm & Wm & Rm).
  exists (concat m ++ gl).
  assert (List.length (concat m) = num_all_stage_var op) as Lc.
  { rewrite length_concat_const with (k := num_var_stage op) by assumption. rewrite Lm. reflexivity. }
  assert (List.length gl = num_global_var op) as Lg by (unfold num_global_var; symmetry; eapply Forall2_len; eauto).
  assert (List.length (concat m ++ gl) = num_dec op) as Lx by (rewrite app_length, Lc, Lg; reflexivity).
  eexists. split; [exact Ef|]. split; [exact Lx|]. split; [now apply unflatten_spec|].
  assert (firstn (num_all_stage_var op) (concat m ++ gl) = concat m) as Ef1.
  { rewrite <- Lc, firstn_app, firstn_all, Nat.sub_diag. simpl. apply app_nil_r. }
  assert (skipn (num_all_stage_var op) (concat m ++ gl) = gl) as Ef2.
  { rewrite <- Lc, skipn_app, skipn_all, Nat.sub_diag. reflexivity. }
  rewrite Ef1, Ef2. rewrite <- Lm, concat_chunks by assumption.
  assert (sgroups op <> []) as Hne.
  { unfold num_var_stage, group_sizes in Hnv. destruct (sgroups op); [simpl in Hnv; lia | discriminate]. }
  rewrite (split_groups_of_concat op m arrs Hne).
  - apply NoDup_app_inv in Hnd. destruct Hnd as (Hnd1 & Hnd2 & Hdis). split.
    + unfold keys. rewrite map_app. rewrite !combine_map_fst; [reflexivity | |].
      * rewrite map_length. eapply Forall2_len; eauto.
      * rewrite map_length. eapply Forall2_len; eauto.
    + intros n Hn. rewrite dget_app. apply in_app_iff in Hn. destruct Hn as [Hn|Hn].
      * apply In_nth_error in Hn. destruct Hn as [i Hi].
        assert (exists a, nth_error arrs i = Some a /\ dget n kw = Some (FArr a)) as (a & Ha & E).
        { clear -Fa Hi. revert i Hi. induction Fa as [|g a gs arrs [H _] _ IH]; intros i Hi; [destruct i; discriminate|].
          destruct i; simpl in *; [inversion Hi; subst; eauto | apply IH; assumption]. }
        rewrite (dget_combine _ (sgroups op) (map FArr arrs) i n (FArr a) Hnd1 Hi); [auto|].
        now rewrite nth_error_map, Ha.
      * rewrite dget_combine_notin by (intro; eapply Hdis; eauto).
        apply In_nth_error in Hn. destruct Hn as [i Hi].
        assert (exists v, nth_error gl i = Some v /\ dget n kw = Some (FSc v)) as (v & Hv & E).
        { clear -Fg Hi. revert i Hi. induction Fg as [|g a gs arrs H _ IH]; intros i Hi; [destruct i; discriminate|].
          destruct i; simpl in *; [inversion Hi; subst; eauto | apply IH; assumption]. }
        rewrite (dget_combine _ (gnames op) (map FSc gl) i n (FSc v) Hnd2 Hi); [auto|].
        now rewrite nth_error_map, Hv.
  - symmetry. eapply Forall2_len; eauto.
  - apply Forall2_flip. rewrite Lm. eapply Forall2_impl; [|exact Fa]. simpl. tauto.
  - rewrite Lm. exact Rm.
Qed.

Lemma Forall2_nth_error_l : forall X Y (P : X -> Y -> Prop) l m i y, Forall2 P l m -> nth_error m i = Some y ->
  exists x, nth_error l i = Some x /\ P x y.
Proof.
  intros X Y P l m i y H; revert i; induction H; intros i Hi; [destruct i; discriminate|].
  destruct i; simpl in *; [inversion Hi; subst; eauto | auto].
Qed.

Lemma flatten_unflatten : forall op (x : list A), NoDup (sgroups op ++ gnames op) -> 0 < num_var_stage op ->
  List.length x = num_dec op ->
  exists d, unflatten_var op x = Ok d /\ flatten_var op d = Ok x /\ kw_ok op d.
Proof.
  intros op x Hnd Hnv Hl. rewrite unflatten_spec by assumption.
  eexists; split; [reflexivity|].
  set (m := chunks (num_stages op) (num_var_stage op) (firstn (num_all_stage_var op) x)).
  set (gv := skipn (num_all_stage_var op) x).
  set (d := combine (sgroups op) (map FArr (split_groups op m)) ++ combine (gnames op) (map FSc gv)).
  assert (sgroups op <> []) as Hne.
  { unfold num_var_stage, group_sizes in Hnv. destruct (sgroups op); [simpl in Hnv; lia | discriminate]. }
  assert (List.length (firstn (num_all_stage_var op) x) = num_stages op * num_var_stage op) as Lf.
  { rewrite firstn_length_le; [reflexivity|]. rewrite Hl. unfold num_dec. lia. }
  assert (Forall (fun r => List.length r = num_var_stage op) m) as Wm by (apply chunks_shaped; exact Lf).
  assert (List.length m = num_stages op) as Lm by (apply chunks_length).
  destruct (split_groups_spec op m Hne Wm) as [Fs Rs]. rewrite Lm in Fs, Rs.
  assert (List.length gv = List.length (gnames op)) as Lg.
  { unfold gv. rewrite skipn_length, Hl. unfold num_dec, num_global_var. lia. }
  apply NoDup_app_inv in Hnd as Hnd'. destruct Hnd' as (Hnd1 & Hnd2 & Hdis).
  assert (kw_ok op d) as Hkw.
  { split.
    - intros g Hg. apply In_nth_error in Hg. destruct Hg as [i Hi].
      destruct (Forall2_nth_error_l _ _ _ _ _ _ _ Fs Hi) as (a & Ha & Hs). exists a. split; [|exact Hs].
      unfold d. rewrite dget_app. rewrite (dget_combine _ _ _ i g (FArr a) Hnd1 Hi); [reflexivity|].
      now rewrite nth_error_map, Ha.
    - intros n Hn. assert (~ In n (sgroups op)) as Hn' by (intro; eapply Hdis; eauto).
      apply In_nth_error in Hn. destruct Hn as [i Hi].
      assert (exists v, nth_error gv i = Some v) as [v Hv].
      { destruct (nth_error gv i) eqn:E; [eauto|]. apply nth_error_None in E.
        assert (i < List.length (gnames op)) by (apply nth_error_Some; congruence). lia. }
      exists v. unfold d. rewrite dget_app, dget_combine_notin by assumption.
      apply (dget_combine _ _ _ i n (FSc v) Hnd2 Hi). now rewrite nth_error_map, Hv. }
  split; [|exact Hkw].
  destruct (flatten_spec op d Hnd Hnv Hkw) as (gl & arrs & m' & Ef & Fg & Fa & Lm' & Wm' & Rm').
  rewrite Ef. f_equal.
  assert (gl = gv) as ->.
  { assert (Forall2 (fun n v => dget n d = Some (FSc v)) (gnames op) gv) as Fg2.
    { assert (forall i n v, nth_error (gnames op) i = Some n -> nth_error gv i = Some v -> dget n d = Some (FSc v)) as H.
      { intros i n v H1 H2. unfold d. rewrite dget_app, dget_combine_notin.
        - apply (dget_combine _ _ _ i n (FSc v) Hnd2 H1). now rewrite nth_error_map, H2.
        - intro Hi. eapply Hdis; eauto. eapply nth_error_In; eauto. }
      clear -H Lg. revert Lg H. generalize (gnames op). generalize gv. intros g; induction g as [|v r IH];
        intros [|n l] Lg H; simpl in Lg; try discriminate; constructor.
      - exact (H 0 n v eq_refl eq_refl).
      - apply IH; [lia|]. intros i n' v' H1 H2. exact (H (S i) n' v' H1 H2). }
    clearbody d. clear -Fg Fg2. clearbody gv. revert gl Fg. induction Fg2 as [|n v l g H _ IH]; intros gl F; inversion F; subst; [reflexivity|].
    f_equal; [congruence | auto]. }
  assert (arrs = split_groups op m) as ->.
  { assert (forall i g a, nth_error (sgroups op) i = Some g -> nth_error (split_groups op m) i = Some a -> dget g d = Some (FArr a)) as H.
    { intros i g a H1 H2. unfold d. rewrite dget_app. rewrite (dget_combine _ _ _ i g (FArr a) Hnd1 H1); [reflexivity|].
      now rewrite nth_error_map, H2. }
    apply Forall2_len in Fs as Ls. clearbody d. clear -H Fa Ls. clearbody m. revert Ls H Fa. generalize (split_groups op m) as sg. revert arrs.
    generalize (sgroups op) as gs. intros gs; induction gs as [|g r IH]; intros arrs sg Ls H F; inversion F as [|? ? ? ? [E _] F']; subst.
    - destruct sg; [reflexivity | discriminate].
    - destruct sg as [|a0 sg]; [discriminate|]. f_equal.
      + specialize (H 0 g a0 eq_refl eq_refl). congruence.
      + apply IH; [simpl in Ls; lia | | assumption]. intros i g' a' H1 H2. exact (H (S i) g' a' H1 H2). }
  assert (m' = m) as ->.
  { apply list_eq_nth with (d := []); [congruence|]. rewrite Lm'. intros i Hi. rewrite Rm' by assumption.
    now rewrite Rs. }
  unfold m. rewrite chunks_concat by exact Lf. unfold gv. apply firstn_skipn.
Qed.

(** ** C10 *)
Definition off_of (op : dvo) (k : nat) : nat := nsum (firstn k (group_sizes op)).

Lemma nth_error_chunk : forall n k (l : list A) i j, i < n -> j < k -> 
  nth_error (nth i (chunks n k l) []) j = nth_error l (j + i * k).
Proof.
  intros n k l i j Hi Hj. rewrite chunks_seq.
  rewrite nth_indep with (d' := firstn k (skipn (0 * k) l)) by (now rewrite map_length, seq_length).
  rewrite map_nth with (f := fun i => firstn k (skipn (i * k) l)). rewrite seq_nth by assumption. simpl.
  clear Hi. revert l j Hj. generalize (i * k) as o. intros o l j Hj. rewrite (Nat.add_comm j o).
  revert l; induction o as [|o IH]; intros l; simpl.
  - revert l j Hj. induction k as [|k IHk]; intros l j Hj; [lia|]. destruct l; [now destruct j|].
    destruct j; simpl; [reflexivity|]. apply IHk. lia.
  - destruct l; [now rewrite firstn_nil; destruct j|]. apply IH.
Qed.

Lemma nth_error_split_sizes : forall sizes (l : list A) k c j, List.length l = sum sizes ->
  nth_error sizes k = Some c -> j < c ->
  nth_error (nth k (split_sizes sizes l) []) j = nth_error l (nsum (firstn k sizes) + j).
Proof.
  intros sizes; induction sizes as [|n r IH]; intros l k c j Hl Hk Hj; [destruct k; discriminate|].
  destruct r as [|n2 r2].
  - destruct k as [|[|k]]; simpl in *; try discriminate. reflexivity.
  - change (split_sizes (n :: n2 :: r2) l) with (firstn n l :: split_sizes (n2 :: r2) (skipn n l)).
    destruct k as [|k].
    + simpl in Hk. inversion Hk; subst. cbn [nth firstn nsum]. simpl.
      clear -Hj. revert l j Hj. induction c as [|c IHc]; intros l j Hj; [lia|]. destruct l; [now destruct j|].
      destruct j; simpl; [reflexivity|]. apply IHc. lia.
    + cbn [nth]. simpl in Hk. change (sum (n :: n2 :: r2)) with (n + sum (n2 :: r2)) in Hl.
      rewrite (IH (skipn n l) k c j); [| rewrite skipn_length; lia | assumption | assumption].
      change (firstn (S k) (n :: n2 :: r2)) with (n :: firstn k (n2 :: r2)). cbn [nsum].
      assert (n <= List.length l) as Hn by lia.
      rewrite <- (firstn_skipn n l) at 2. rewrite nth_error_app2; rewrite firstn_length_le by assumption; [|lia].
      f_equal. lia.
Qed.

(** the position of group.name in the enumeration *)
Lemma index_of_svname : forall op k g j n, dvo_ok op -> nth_error (sgroups op) k = Some g ->
  nth_error (gnames_of op g) j = Some n ->
  index_of (svname g n) (stage_var_names op) = Some (off_of op k + j).
Proof.
  intros op k g j n Hok Hk Hj. apply index_of_nth; [apply Hok|].
  unfold off_of, stage_var_names, group_sizes. clear Hok. revert k Hk.
  induction (sgroups op) as [|g0 r IH]; intros k Hk; [destruct k; discriminate|].
  destruct k as [|k]; simpl in *.
  - inversion Hk; subst. rewrite nth_error_app1.
    + now rewrite nth_error_map, Hj.
    + rewrite map_length. apply nth_error_Some. congruence.
  - rewrite nth_error_app2; rewrite map_length; unfold group_size; [|lia].
    replace (List.length (gnames_of op g0) + nsum (firstn k (map (fun g1 => List.length (gnames_of op g1)) r)) + j - List.length (gnames_of op g0))
      with (nsum (firstn k (map (group_size op) r)) + j) by (unfold group_size; lia).
    apply IH. assumption.
Qed.

Lemma sgroups_nodup_pos : forall op g n, is_var op g n -> exists k j, nth_error (sgroups op) k = Some g /\
  nth_error (gnames_of op g) j = Some n /\ index_of n (gnames_of op g) = Some j.
Proof.
  intros op g n [H1 H2]. apply In_nth_error in H1. destruct H1 as [k Hk].
  destruct (index_of_in _ _ H2) as [j Hj]. exists k, j. split; [assumption|].
  split; [|assumption]. now apply index_of_lt in Hj.
Qed.

Lemma get_var_unflatten : forall op (x : list A) g n s j, dvo_ok op -> NoDup (sgroups op ++ gnames op) ->
  g <> "global" -> List.length x = num_dec op -> is_var op g n -> s < num_stages op ->
  index_of n (gnames_of op g) = Some j ->
  exists d a v, unflatten_var op x = Ok d /\ dget g d = Some (FArr a) /\
    nth_error (nth s a []) j = Some v /\ get_var op x g n (Z.of_nat s) = Ok v.
Proof.
  intros op x g n s j Hok Hnd Hg Hl Hv Hs Hj.
  destruct (sgroups_nodup_pos op g n Hv) as (k & j' & Hk & Hjn & Hj'). assert (j' = j) by congruence. subst j'.
  assert (0 < num_var_stage op) as Hnv.
  { rewrite <- stage_var_names_length. assert (In (svname g n) (stage_var_names op)) as Hi.
    { rewrite stage_var_names_pairs. apply is_var_list in Hv.
      apply (in_map (fun gn => svname (fst gn) (snd gn))) in Hv. exact Hv. }
    destruct (stage_var_names op); simpl in *; [tauto | lia]. }
  rewrite unflatten_spec by assumption.
  set (m := chunks (num_stages op) (num_var_stage op) (firstn (num_all_stage_var op) x)).
  assert (sgroups op <> []) as Hne by (intro E; rewrite E in Hk; destruct k; discriminate).
  assert (List.length (firstn (num_all_stage_var op) x) = num_stages op * num_var_stage op) as Lf.
  { rewrite firstn_length_le; [reflexivity|]. rewrite Hl. unfold num_dec. lia. }
  assert (Forall (fun r => List.length r = num_var_stage op) m) as Wm by (apply chunks_shaped; exact Lf).
  assert (List.length m = num_stages op) as Lm by (apply chunks_length).
  destruct (index_at_var op g n s Hg Hv Hs) as (i & Ei & Hi & Ea).
  assert (i = off_of op k + j) as -> by (rewrite (index_of_svname op k g j n Hok Hk Hjn) in Ei; congruence).
  assert (off_of op k + j + s * num_var_stage op < List.length x) as Hlt.
  { rewrite Hl. unfold num_dec, num_all_stage_var.
    assert (off_of op k + j + s * num_var_stage op < (s + 1) * num_var_stage op) by lia.
    assert ((s + 1) * num_var_stage op <= num_stages op * num_var_stage op) by (apply Nat.mul_le_mono_r; lia). lia. }
  destruct (nth_error x (off_of op k + j + s * num_var_stage op)) as [v|] eqn:Ev;
    [|apply nth_error_None in Ev; lia].
  eexists. exists (map (fun row => nth k (split_sizes (group_sizes op) row) []) m), v.
  split; [reflexivity|].
  assert (k < List.length (sgroups op)) as Hkl by (apply nth_error_Some; congruence).
  split.
  { rewrite dget_app. apply NoDup_app_inv in Hnd. destruct Hnd as (Hnd1 & _ & _).
    rewrite (dget_combine _ _ _ k g (FArr (map (fun row => nth k (split_sizes (group_sizes op) row) []) m)) Hnd1 Hk); [reflexivity|].
    unfold split_groups. rewrite !nth_error_map.
    assert (nth_error (seq 0 (Nat.max 1 (List.length (sgroups op)))) k = Some k) as ->; [|reflexivity].
    rewrite nth_error_nth' with (d := 0) by (rewrite seq_length; lia). rewrite seq_nth by lia. reflexivity. }
  split.
  - rewrite nth_indep with (d' := nth k (split_sizes (group_sizes op) []) []) by (rewrite map_length; lia).
    rewrite map_nth with (f := fun row => nth k (split_sizes (group_sizes op) row) []).
    rewrite (nth_error_split_sizes (group_sizes op) (nth s m []) k (group_size op g) j).
    + unfold m. rewrite (nth_error_chunk (num_stages op) (num_var_stage op) _ s _ Hs).
      * fold (off_of op k). rewrite <- Ev. rewrite <- (firstn_skipn (num_all_stage_var op) x) at 2.
        rewrite nth_error_app1; [reflexivity|]. rewrite Lf.
        assert (off_of op k + j + s * num_var_stage op < (s + 1) * num_var_stage op) by lia.
        assert ((s + 1) * num_var_stage op <= num_stages op * num_var_stage op) by (apply Nat.mul_le_mono_r; lia). lia.
      * fold (off_of op k). exact Hi.
    + rewrite <- nsum_sum. rewrite Forall_forall in Wm. apply Wm. apply nth_In. lia.
    + unfold group_sizes. rewrite nth_error_map, Hk. reflexivity.
    + unfold group_size. apply nth_error_Some. congruence.
  - unfold get_var. rewrite Ea. cbn [bind]. unfold array_get. now rewrite Ev.
Qed.

Lemma enum_group : forall op g, dvo_ok op -> In g (sgroups op) -> g <> "global" -> forall s, s < num_stages op ->
  group_indices_at op g (Z.of_nat s) = mapM (fun n => index_at op g n (Z.of_nat s)) (gnames_of op g).
Proof.
  intros op g Hok Hg Hng s Hs. unfold group_indices_at. rewrite norm_stage_nat by assumption. cbn [bind].
  destruct (ok_groups op Hok g Hg) as [l Hl]. unfold group_names, gnames_of. rewrite Hl. cbn [bind].
  clear Hl. induction l as [|n r IH]; simpl; [reflexivity|].
  unfold index_at at 1. destruct (String.eqb_spec g "global"); [contradiction|].
  rewrite norm_stage_nat by assumption. cbn [bind].
  destruct (enum_get (svname g n) (stage_var_names op)); simpl; [|reflexivity].
  rewrite <- IH. destruct (mapM _ r); reflexivity.
Qed.

Lemma group_indices_contig : forall op g k s, dvo_ok op -> nth_error (sgroups op) k = Some g -> s < num_stages op ->
  group_indices_at op g (Z.of_nat s) = Ok (map (fun j => off_of op k + j + s * num_var_stage op) (seq 0 (group_size op g))).
Proof.
  intros op g k s Hok Hk Hs. unfold group_indices_at. rewrite norm_stage_nat by assumption. cbn [bind].
  assert (In g (sgroups op)) as Hg by (eapply nth_error_In; eauto).
  destruct (ok_groups op Hok g Hg) as [l Hl]. unfold group_names. rewrite Hl. cbn [bind].
  assert (gnames_of op g = l) as El by (unfold gnames_of; now rewrite Hl).
  assert (mapM (fun n => enum_get (svname g n) (stage_var_names op)) l = Ok (map (fun j => off_of op k + j) (seq 0 (List.length l)))) as E.
  { assert (forall j n, nth_error l j = Some n -> enum_get (svname g n) (stage_var_names op) = Ok (off_of op k + j)) as H.
    { intros j n Hj. unfold enum_get. rewrite (index_of_svname op k g j n Hok Hk); [reflexivity|]. now rewrite El. }
    clear -H. revert H. generalize (off_of op k) as o. induction l as [|n r IH]; intros o H; simpl; [reflexivity|].
    rewrite (H 0 n eq_refl). rewrite (IH (S o)).
    - f_equal. f_equal. rewrite <- seq_shift, map_map. apply map_ext. intro; lia.
    - intros j n' Hj. rewrite (H (S j) n' Hj). f_equal. lia. }
  rewrite E. cbn [fmap]. rewrite map_map. unfold group_size. rewrite El. reflexivity.
Qed.

Lemma group_in_dec : forall op g k, dvo_ok op -> nth_error (sgroups op) k = Some g ->
  group_indices_in_dec op g = Ok (flat_map (fun s => map (fun j => off_of op k + j + s * num_var_stage op) (seq 0 (group_size op g))) (seq 0 (num_stages op))).
Proof.
  intros op g k Hok Hk. unfold group_indices_in_dec.
  assert (forall ss, (forall s, In s ss -> s < num_stages op) -> mapM (fun s => group_indices_at op g (Z.of_nat s)) ss
     = Ok (map (fun s => map (fun j => off_of op k + j + s * num_var_stage op) (seq 0 (group_size op g))) ss)) as H.
  { intros ss; induction ss as [|s r IH]; intros Hss; simpl; [reflexivity|].
    rewrite (group_indices_contig op g k s Hok Hk) by (apply Hss; simpl; auto).
    rewrite IH; [reflexivity|]. intros; apply Hss; simpl; auto. }
  rewrite H by (intros s Hs; apply in_seq in Hs; lia). cbn [fmap]. now rewrite flat_map_concat_map.
Qed.

Lemma stage_var_array_spec : forall op (x : list A), List.length x = num_dec op ->
  exists m, get_stage_var_array op x = Ok m /\ List.length (rows m) = num_stages op /\
    forall s j, s < num_stages op -> j < num_var_stage op ->
      nth_error (nth s (rows m) []) j = nth_error x (j + s * num_var_stage op).
Proof.
  intros op x Hl. unfold get_stage_var_array, reshape2.
  replace (Z.eqb (Z.of_nat (num_stages op)) (-1)) with false by lia.
  replace (Z.ltb (Z.of_nat (num_stages op)) 0) with false by lia. rewrite Nat2Z.id.
  replace (num_dec op - num_global_var op) with (num_all_stage_var op) by (unfold num_dec; lia).
  assert (List.length (firstn (num_all_stage_var op) x) = num_stages op * num_var_stage op) as Lf.
  { rewrite firstn_length_le; [reflexivity|]. rewrite Hl. unfold num_dec. lia. }
  rewrite Lf, Nat.eqb_refl. eexists; split; [reflexivity|]. cbn [rows]. split; [apply chunks_length|].
  intros s j Hs Hj. rewrite nth_error_chunk by assumption.
  rewrite <- (firstn_skipn (num_all_stage_var op) x) at 2. rewrite nth_error_app1; [reflexivity|].
  rewrite Lf. assert ((s + 1) * num_var_stage op <= num_stages op * num_var_stage op) by (apply Nat.mul_le_mono_r; lia). lia.
Qed.

(** ** C11 *)
Lemma interval_tensor : forall op (x : list A) g, dvo_ok op -> NoDup (sgroups op ++ gnames op) ->
  0 < num_var_stage op -> List.length x = num_dec op -> In g (sgroups op) -> 2 <= nspi op -> 1 <= nintervals op ->
  exists d a t, unflatten_var op x = Ok d /\ dget g d = Some (FArr a) /\ get_interval_tensor op x g = Ok t /\
    ncols t = nspi op /\ List.length (rows t) = nintervals op /\
    forall i j, i < nintervals op -> j < nspi op ->
      nth_error (nth i (rows t) []) j = nth_error a (i * (nspi op - 1) + j).
Proof.
  intros op x g Hok Hnd Hnv Hl Hg Hm Hi1.
  destruct (flatten_unflatten op x Hnd Hnv Hl) as (d & Ed & _ & [Hk _]).
  destruct (Hk g Hg) as (a & Ea & [La Wa]).
  exists d, a. unfold get_interval_tensor. rewrite Ed. cbn [bind]. rewrite Ea. cbn [as_array bind].
  rewrite (conv_ok _ a (nspi op) (nspi op - 1) (nintervals op - 1)); try lia.
  - eexists. split; [reflexivity|]. split; [reflexivity|]. split; [reflexivity|]. cbn [ncols rows].
    replace (S (nintervals op - 1)) with (nintervals op) by lia.
    split; [reflexivity|]. split; [unfold windows; now rewrite map_length, seq_length|].
    intros i j Hi Hj. unfold windows.
    rewrite nth_indep with (d' := firstn (nspi op) (skipn (0 * (nspi op - 1)) a)) by (now rewrite map_length, seq_length).
    rewrite map_nth with (f := fun b => firstn (nspi op) (skipn (b * (nspi op - 1)) a)). rewrite seq_nth by assumption.
    simpl plus. generalize (i * (nspi op - 1)) as o. clear -Hj. revert Hj. generalize (nspi op) as w. intros w Hj o. revert a.
    induction o as [|o IH]; intros a; simpl.
    + revert j Hj a. induction w as [|w IHw]; intros j Hj a; [lia|]. destruct a; [now destruct j|].
      destruct j; simpl; [reflexivity|]. apply IHw. lia.
    + destruct a; [rewrite firstn_nil; now destruct j|]. apply IH.
  - rewrite La. unfold num_stages. replace (nintervals op) with (S (nintervals op - 1)) at 1 by lia.
    cbn [Nat.mul]. lia.
Qed.
End Flat2.

(** ** C12 *)
Lemma flat_map_len_const : forall A B (f : A -> list B) l k, (forall a, List.length (f a) = k) ->
  List.length (flat_map f l) = List.length l * k.
Proof. intros A B f l k H; induction l as [|a r IH]; simpl; [reflexivity|]. now rewrite app_length, IH, H. Qed.

Lemma combine_flat_map : forall I A B (f : I -> list A) (g : I -> list B) l, (forall i, List.length (f i) = List.length (g i)) ->
  combine (flat_map f l) (flat_map g l) = flat_map (fun i => combine (f i) (g i)) l.
Proof.
  intros I A B f g l H; induction l as [|i r IH]; simpl; [reflexivity|].
  rewrite <- IH. specialize (H i). revert H. generalize (f i) (g i). intros a; induction a as [|x a IHa]; intros [|y b] H; simpl in *; try discriminate; auto.
  f_equal. apply IHa. lia.
Qed.

Lemma combine_map2 : forall A B (f : A -> A) (g : B -> B) (a : list A) (b : list B),
  combine (map f a) (map g b) = map (fun p => (f (fst p), g (snd p))) (combine a b).
Proof. intros A B f g a; induction a as [|x a IH]; intros [|y b]; simpl; auto. f_equal. auto. Qed.

Lemma offset_entries : forall br bc ro co nb rs cs, List.length br = List.length bc ->
  create_offset_structure br bc ro co nb = Ok (rs, cs) ->
  List.length rs = List.length cs /\
  combine rs cs = flat_map (fun k => map (fun p => (fst p + k * ro, snd p + k * co)) (combine br bc)) (seq 0 nb).
Proof.
  intros br bc ro co nb rs cs Hl H. unfold create_offset_structure in H.
  destruct (Nat.eqb nb 0); [discriminate|]. inversion H; subst. split.
  - rewrite !flat_map_len_const with (k := List.length br); auto; intro; rewrite map_length; auto.
  - rewrite combine_flat_map by (intro; rewrite !map_length; assumption).
    apply flat_map_ext. intro k. apply combine_map2 with (f := fun r => r + k * ro) (g := fun c => c + k * co).
Qed.

Lemma offset_nodup : forall (es : list (nat * nat)) ro co nb, NoDup es -> (forall p, In p es -> fst p < ro) ->
  NoDup (flat_map (fun k => map (fun p => (fst p + k * ro, snd p + k * co)) es) (seq 0 nb)).
Proof.
  intros es ro co nb Hnd Hr. generalize 0 as st. induction nb as [|nb IH]; intro st; simpl; [constructor|].
  apply NoDup_app_intro.
  - apply NoDup_map_inj; [|assumption]. intros [a b] [c d] _ _ E. simpl in E. inversion E. f_equal; lia.
  - apply IH.
  - intros [a b] H1 H2. apply in_map_iff in H1. destruct H1 as ([r c] & E & Hin). simpl in E. inversion E; subst.
    apply in_flat_map in H2. destruct H2 as (k & Hk & H2). apply in_seq in Hk.
    apply in_map_iff in H2. destruct H2 as ([r2 c2] & E2 & Hin2). simpl in E2. inversion E2.
    pose proof (Hr _ Hin). pose proof (Hr _ Hin2). simpl in *.
    destruct (mixed_radix ro r2 r k st); lia.
Qed.

Lemma stack_rows : forall x n inc k j v, k < n -> nth_error x j = Some v ->
  nth_error (nth k (stack_and_increment x n inc) []) j = Some (v + k * inc).
Proof.
  intros x n inc k j v Hk Hj. unfold stack_and_increment.
  rewrite nth_indep with (d' := map (fun v => v + 0 * inc) x) by (now rewrite map_length, seq_length).
  rewrite map_nth with (f := fun k => map (fun v => v + k * inc) x). rewrite seq_nth by assumption.
  simpl. now rewrite nth_error_map, Hj.
Qed.
