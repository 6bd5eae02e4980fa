From Verif Require Import Base TreeModel TreeSpec TreeProofs.

(** ** C04: raveling *)
Section Ravel.
Context {A : Type}.
Implicit Types (x : leaf A).

Lemma lravel_length : forall x, List.length (lravel x) = lsize x.
Proof. now intros [a|s e]. Qed.

Lemma split_sizes_concat : forall cs : list (list A), cs <> [] ->
  split_sizes (map (@List.length A) cs) (concat cs) = cs.
Proof.
  intros cs; induction cs as [|c r IH]; [congruence|]. intros _.
  destruct r as [|c2 r2]; [simpl; now rewrite app_nil_r|].
  cbn [map split_sizes concat]. rewrite firstn_app, firstn_all, Nat.sub_diag. simpl firstn.
  rewrite app_nil_r. f_equal. rewrite skipn_app, skipn_all, Nat.sub_diag. simpl skipn.
  apply IH. discriminate.
Qed.

Fixpoint sum (l : list nat) : nat := match l with [] => 0 | n :: r => n + sum r end.

Lemma split_sizes_spec : forall sizes (arr : list A), sizes <> [] -> List.length arr = sum sizes ->
  concat (split_sizes sizes arr) = arr /\ map (@List.length A) (split_sizes sizes arr) = sizes.
Proof.
  intros sizes; induction sizes as [|n r IH]; intros arr Hne Hl; [congruence|].
  destruct r as [|n2 r2].
  - simpl in *. rewrite app_nil_r. split; [reflexivity|]. f_equal. lia.
  - change (split_sizes (n :: n2 :: r2) arr) with (firstn n arr :: split_sizes (n2 :: r2) (skipn n arr)).
    change (sum (n :: n2 :: r2)) with (n + sum (n2 :: r2)) in Hl.
    destruct (IH (skipn n arr)) as [H1 H2]; [discriminate | rewrite skipn_length; lia |].
    split.
    + cbn [concat]. rewrite H1. apply firstn_skipn.
    + cbn [map]. rewrite H2. f_equal. apply firstn_length_le. lia.
Qed.

Lemma prod_size : forall s, prod s = shape_size s.
Proof. induction s as [|d r IH]; [reflexivity|]. cbn [shape_size]. rewrite <- IH. reflexivity. Qed.

Lemma reconstruct_ok : forall x, leaf_ok x = true -> reconstruct (lravel x) (lshape x) = Ok x.
Proof.
  intros [a|s e]; simpl; [reflexivity|]. intro H. apply andb_true_iff in H. destruct H as [H1 H2].
  unfold reconstruct. rewrite prod_size. now rewrite H1, H2.
Qed.

Lemma mapM_ok : forall X Y (f : X -> result Y) l m, Forall2 (fun a b => f a = Ok b) l m ->
  mapM f l = Ok m.
Proof. intros X Y f l m H; induction H as [|a b l m Hab _ IH]; simpl; [reflexivity|]. now rewrite Hab, IH. Qed.

Lemma mapM_reconstruct : forall vs : list (leaf A), forallb leaf_ok vs = true ->
  mapM (fun cs : list A * list nat => reconstruct (fst cs) (snd cs)) (combine (map lravel vs) (map lshape vs)) = Ok vs.
Proof.
  intros vs; induction vs as [|x r IH]; simpl; [reflexivity|]. intro H. apply andb_true_iff in H.
  destruct H as [H1 H2]. rewrite reconstruct_ok by assumption. now rewrite IH.
Qed.

(** reconstructing from arbitrary chunks of the right sizes *)
Lemma reconstruct_chunk : forall x c, leaf_ok x = true -> List.length c = lsize x ->
  exists y : leaf A, reconstruct c (lshape x) = Ok y /\ lravel y = c /\ lshape y = lshape x /\ leaf_ok y = true.
Proof.
  intros [a|s e] c H Hl; simpl in *.
  - destruct c as [|b [|? ?]]; try discriminate. exists (LScalar b). repeat split.
  - apply andb_true_iff in H. destruct H as [H1 H2]. rewrite <- Hl in H1, H2.
    exists (LArray s c). unfold reconstruct. rewrite prod_size, H1, H2. simpl. rewrite H1, H2. auto.
Qed.

Lemma mapM_reconstruct_chunks : forall (vs : list (leaf A)) chunks, forallb leaf_ok vs = true ->
  map (@List.length A) chunks = map (@lsize A) vs ->
  exists ws : list (leaf A), mapM (fun cs : list A * list nat => reconstruct (fst cs) (snd cs)) (combine chunks (map lshape vs)) = Ok ws /\
    map lravel ws = chunks /\ map lshape ws = map lshape vs /\ forallb leaf_ok ws = true.
Proof.
  intros vs; induction vs as [|x r IH]; intros [|c cs] H Hl; simpl in *; try discriminate.
  - exists []. auto.
  - apply andb_true_iff in H. destruct H as [H1 H2]. inversion Hl as [[Hl1 Hl2]].
    destruct (reconstruct_chunk x c H1 Hl1) as (y & E & Ey1 & Ey2 & Ey3).
    destruct (IH cs H2 Hl2) as (ws & E2 & E3 & E4 & E5).
    exists (y :: ws). rewrite E, E2. simpl. rewrite Ey1, Ey2, Ey3, E3, E4, E5. auto.
Qed.

Lemma length_concat_sum : forall l : list (list A), List.length (concat l) = sum (map (@List.length A) l).
Proof. intros l; induction l as [|c r IH]; simpl; [reflexivity|]. now rewrite app_length, IH. Qed.

Lemma map_lsize : forall vs : list (leaf A), map (@List.length A) (map lravel vs) = map lsize vs.
Proof. intros. rewrite map_map. apply map_ext. apply lravel_length. Qed.

Definition ravel_spec (t : ptree (leaf A)) : list A := concat (map lravel (leaf_values t)).

Lemma flat_dict_again : forall (t : ptree (leaf A)), uniq_p t = true -> named_p t = true ->
  dict_of_list (combine (map dotted (leaf_locs t)) (leaf_values t)) = flat_of (leaves t).
Proof.
  intros t Hu Hn. unfold leaf_locs, leaf_values. rewrite combine_map_l, combine_split_map.
  rewrite dict_of_list_nodup; [reflexivity|]. exact (NoDup_flat _ t Hu Hn).
Qed.

Lemma values_flat_of : forall V (l : list (loc * V)), values (flat_of l) = map snd l.
Proof. intros. unfold values, flat_of. now rewrite map_map. Qed.
Lemma keys_flat_of : forall V (l : list (loc * V)), keys (flat_of l) = map dotted (map fst l).
Proof. intros. unfold keys, flat_of. now rewrite !map_map. Qed.

Lemma unravel_arr : forall (t : ptree (leaf A)) arr, uniq_p t = true -> named_p t = true ->
  forallb leaf_ok (leaf_values t) = true -> List.length arr = List.length (ravel_spec t) ->
  exists d : dict (leaf A), unravel_dict (flat_of (leaves t)) arr = Ok d /\ concat (map lravel (values d)) = arr /\
     map lshape (values d) = map lshape (leaf_values t) /\ forallb leaf_ok (values d) = true /\
     List.length (values d) = List.length (leaves t).
Proof.
  intros t arr Hu Hn Hok Hl. unfold unravel_dict.
  destruct (flat_of (leaves t)) as [|kv0 rest] eqn:E.
  - exists []. destruct (leaves t) eqn:El; [|discriminate]. simpl.
    unfold ravel_spec, leaf_values in *. rewrite El in *. simpl in *.
    destruct arr; [auto | discriminate].
  - rewrite <- E. rewrite values_flat_of, keys_flat_of. fold (leaf_values t). fold (leaf_locs t).
    assert (leaf_values t <> []) as Hne.
    { unfold leaf_values. destruct (leaves t); [discriminate|]. discriminate. }
    unfold ravel_spec in Hl. rewrite length_concat_sum, map_lsize in Hl.
    destruct (split_sizes_spec (map lsize (leaf_values t)) arr) as [H1 H2].
    { destruct (leaf_values t); [congruence | discriminate]. }
    { assumption. }
    destruct (mapM_reconstruct_chunks (leaf_values t) _ Hok H2) as (ws & E1 & E2 & E3 & E4).
    rewrite E1. simpl.
    assert (List.length ws = List.length (leaves t)) as Hlw.
    { apply (f_equal (@List.length _)) in E3. rewrite !map_length in E3.
      unfold leaf_values in E3. now rewrite map_length in E3. }
    assert (List.length (map dotted (leaf_locs t)) = List.length ws) as Hlk.
    { unfold leaf_locs. now rewrite !map_length. }
    eexists; split; [reflexivity|].
    rewrite dict_of_list_nodup.
    + unfold values. rewrite combine_map_snd by assumption. rewrite E2. auto.
    + rewrite combine_map_fst by assumption. pose proof (NoDup_flat _ t Hu Hn) as Hd.
      rewrite keys_flat_of in Hd. exact Hd.
Qed.

Lemma unravel_self : forall (t : ptree (leaf A)), uniq_p t = true -> named_p t = true ->
  forallb leaf_ok (leaf_values t) = true ->
  exists d : dict (leaf A), unravel_dict (flat_of (leaves t)) (ravel_spec t) = Ok d /\ values d = leaf_values t.
Proof.
  intros t Hu Hn Hok. unfold unravel_dict.
  destruct (flat_of (leaves t)) as [|kv0 rest] eqn:E.
  - exists []. split; [reflexivity|]. unfold leaf_values. now destruct (leaves t).
  - rewrite <- E. rewrite values_flat_of, keys_flat_of. fold (leaf_values t). fold (leaf_locs t).
    assert (leaf_values t <> []) as Hne.
    { unfold leaf_values. destruct (leaves t); [discriminate|]. discriminate. }
    unfold ravel_spec. rewrite <- map_lsize. rewrite split_sizes_concat
      by (destruct (leaf_values t); [congruence | discriminate]).
    rewrite mapM_reconstruct by assumption. simpl. eexists; split; [reflexivity|].
    rewrite dict_of_list_nodup.
    + unfold values. apply combine_map_snd. unfold leaf_locs, leaf_values. now rewrite !map_length.
    + rewrite combine_map_fst by (unfold leaf_locs, leaf_values; now rewrite !map_length).
      pose proof (NoDup_flat _ t Hu Hn) as Hd. rewrite keys_flat_of in Hd. exact Hd.
Qed.

Lemma tree_ravel_spec : forall dummy (t : ptree (leaf A)), uniq_p t = true -> named_p t = true ->
  exists aux unr, tree_flatten dummy t = Ok (leaf_values t, aux) /\
    tree_ravel dummy t = Ok (ravel_spec t, unr) /\
    forall arr, unr arr = bind (unravel_dict (flat_of (leaves t)) arr)
                               (fun d => tree_unflatten aux (values d)).
Proof.
  intros dummy t Hu Hn. destruct (flatten_spec _ dummy t Hu Hn) as (td & _ & Ef).
  eexists; eexists; split; [exact Ef|]. unfold tree_ravel. rewrite Ef. cbn [fmap fst snd].
  rewrite flat_dict_again by assumption. split; [|reflexivity].
  unfold ravel_dict. rewrite values_flat_of. reflexivity.
Qed.

Lemma ravel_unravel : forall dummy (t : ptree (leaf A)), uniq_p t = true -> named_p t = true ->
  forallb leaf_ok (leaf_values t) = true ->
  exists v unravel, tree_ravel dummy t = Ok (v, unravel) /\
    v = concat (map lravel (leaf_values t)) /\ unravel v = Ok t /\
    (forall arr, List.length arr = List.length v ->
       exists t' unr', unravel arr = Ok t' /\ shape t' = shape t /\
         map lshape (leaf_values t') = map lshape (leaf_values t) /\
         tree_ravel dummy t' = Ok (arr, unr')).
Proof.
  intros dummy t Hu Hn Hok.
  destruct (tree_ravel_spec dummy t Hu Hn) as (aux & unr & Ef & Er & Hunr).
  exists (ravel_spec t), unr. split; [exact Er|]. split; [reflexivity|]. split.
  - rewrite Hunr. destruct (unravel_self t Hu Hn Hok) as (d & E & Ev). rewrite E. cbn [bind].
    rewrite Ev. destruct (pytree_unflatten _ dummy t aux (leaf_values t) _ Hu Hn Ef eq_refl)
      as (t' & H1 & H2 & H3 & _).
    rewrite H1. f_equal. now apply shape_leaf_values_eq.
  - intros arr Hl. destruct (unravel_arr t arr Hu Hn Hok Hl) as (d & E & E1 & E2 & E3 & E4).
    rewrite Hunr, E. cbn [bind].
    destruct (pytree_unflatten _ dummy t aux (values d) _ Hu Hn Ef) as (t' & H1 & H2 & H3 & _).
    { rewrite E4. unfold leaf_values. now rewrite map_length. }
    rewrite H1.
    assert (uniq_p t' = true) as Hu2 by (eapply shape_uniq; [symmetry; exact H2 | exact Hu]).
    assert (named_p t' = true) as Hn2 by (rewrite (shape_named _ _ _ _ H2); exact Hn).
    destruct (tree_ravel_spec dummy t' Hu2 Hn2) as (aux2 & unr2 & _ & Er2 & _).
    exists t', unr2. split; [reflexivity|]. split; [assumption|]. split; [now rewrite H3|].
    rewrite Er2. do 2 f_equal. unfold ravel_spec. now rewrite H3, E1.
Qed.
End Ravel.

(** ** C05 *)
Lemma set_get_param : forall V p (v : V) t t', set_param dot p v t = Ok t' -> get_param dot p t' = Ok v.
Proof.
  intros V p v t t' H. unfold set_param in H. rewrite set_leaf_loc in H. rewrite get_param_loc.
  destruct (resolve dot p) as [q k]. eapply get_set_same; eauto.
Qed.

Lemma set_get_param_other : forall V p q (v : V) t t', set_param dot p v t = Ok t' -> p <> q ->
  starts_dot p = false -> starts_dot q = false -> get_param dot q t' = get_param dot q t.
Proof.
  intros V p q v t t' H Hne Hp Hq. unfold set_param in H. rewrite set_leaf_loc in H. rewrite !get_param_loc.
  pose proof (resolve_inj p q Hp Hq) as Hinj.
  destruct (resolve dot p) as [q1 k1], (resolve dot q) as [q2 k2].
  eapply get_set_other; eauto.
Qed.

Lemma get_existing_set_shape : forall V p (v v0 : V) t, get_param dot p t = Ok v0 ->
  exists t', set_param dot p v t = Ok t' /\ shape t' = shape t.
Proof.
  intros V p v v0 t H. unfold set_param. rewrite set_leaf_loc. rewrite get_param_loc in H.
  destruct (resolve dot p) as [q k]. eapply set_loc_existing; eauto.
Qed.

Lemma get_param_dotted : forall V l (t : ptree V) v, uniq_p t = true -> named_p t = true -> loc_ok l = true ->
  (get_param dot (dotted l) t = Ok v <-> In (l, v) (leaves t)).
Proof.
  intros V l t v Hu Hn Hl. rewrite get_param_loc, resolve_dotted by assumption.
  now rewrite in_leaves_get.
Qed.

Lemma set_param_err : forall V c p (v : V) t e, set_param c p v t = Raise e -> e = KeyError.
Proof. intros V c p v t e H. unfold set_param in H. rewrite set_leaf_loc in H. eapply set_loc_err; eauto. Qed.

Lemma set_param_ok_iff : forall V ns k (v : V) t, loc_ok (ns, k) = true ->
  ((exists t', set_param dot (dotted (ns, k)) v t = Ok t') <-> (exists n, walk ns t = Ok n)).
Proof.
  intros V ns k v t H. unfold set_param. rewrite set_leaf_loc, resolve_dotted by assumption.
  apply (set_loc_ok_iff V (ns, k)).
Qed.

(** every other parameter of the enumeration is untouched, and nothing else appears *)
Lemma set_param_leaves : forall V l (v : V) t t', uniq_p t = true -> named_p t = true -> loc_ok l = true ->
  set_param dot (dotted l) v t = Ok t' ->
  forall l2 v2, In (l2, v2) (leaves t') <-> (l2 = l /\ v2 = v) \/ (l2 <> l /\ In (l2, v2) (leaves t)).
Proof.
  intros V [p k] v t t' Hu Hn Hl H. unfold set_param in H. rewrite set_leaf_loc, resolve_dotted in H by assumption.
  assert (uniq_p t' = true) as Hu'.
  { clear Hn Hl. revert t t' Hu H. unfold set_loc; simpl.
    induction p as [|n r IH]; intros [d c] t' Hu H; simpl in H.
    - inversion H; subst. apply uniq_p_node in Hu. apply uniq_p_node. destruct Hu as (H1 & H2 & H3).
      split; [now apply NoDup_keys_dset | auto].
    - destruct (dget n c) as [s|] eqn:E; [|discriminate].
      destruct (update_at r (set_data k v) s) as [s'|] eqn:Es; [|discriminate]. inversion H; subst.
      apply uniq_p_node in Hu. apply uniq_p_node. destruct Hu as (H1 & H2 & H3).
      split; [assumption|]. split; [now apply NoDup_keys_dset|].
      assert (uniq_p s' = true) as Hs'.
      { eapply IH; eauto. rewrite Forall_forall in H3. apply dget_in in E. exact (H3 _ E). }
      clear -H3 Hs'. induction c as [|[m x] c IHc]; simpl; [constructor; auto|].
      inversion H3; subst. destruct (String.eqb n m); constructor; auto. }
  intros [q k2] v2. rewrite !in_leaves_get by assumption. split.
  - intro Hg. destruct (list_eq_dec string_dec p q) as [->|Hpq]; [destruct (string_dec k k2) as [->|Hk]|].
    + left. split; [reflexivity|]. apply get_set_same in H. congruence.
    + right. split; [congruence|]. rewrite <- Hg. symmetry. eapply get_set_other; eauto. congruence.
    + right. split; [congruence|]. rewrite <- Hg. symmetry. eapply get_set_other; eauto. congruence.
  - intros [[E1 E2]|[E1 E2]].
    + inversion E1; subst. eapply get_set_same; eauto.
    + rewrite <- E2. eapply get_set_other; eauto.
Qed.

(** ** C06 *)
Definition child_ok_names (ns : list string) : bool := forallb name_ok ns.

Lemma replace_subtree_unfold : forall D ns n (s t : tree D), forallb name_ok ns = true -> name_ok n = true ->
  replace_subtree dot (join dot (ns ++ [n])) s t =
  update_at ns (fun p => match p with
     Node d c => if dmem n c then Ok (Node d (dset n s c)) else Raise KeyError end) t.
Proof.
  intros D ns n s t H1 H2. unfold replace_subtree. 
  rewrite split_join.
  - rewrite removelast_last, last_last. rewrite subtree_names_join; [reflexivity | |].
    + now apply names_ok_clean.
    + intros ->. discriminate.
  - destruct ns; discriminate.
  - rewrite forallb_app, names_ok_clean by assumption. simpl. unfold name_ok in H2.
    apply andb_true_iff in H2. now rewrite (proj1 H2).
Qed.

Lemma replace_subtree_spec : forall D ns n (s t : tree D), forallb name_ok (ns ++ [n]) = true ->
  match walk (ns ++ [n]) t with
  | Raise _ => replace_subtree dot (join dot (ns ++ [n])) s t = Raise KeyError
  | Ok _ => exists t', replace_subtree dot (join dot (ns ++ [n])) s t = Ok t' /\
      walk (ns ++ [n]) t' = Ok s /\
      (forall q, (forall r, q <> (ns ++ [n]) ++ r) -> (forall r, ns ++ [n] <> q ++ r) ->
         walk q t' = walk q t) /\
      (forall q m r node, q ++ m :: r = ns ++ [n] -> walk q t = Ok node ->
         exists node', walk q t' = Ok node' /\ tdata node' = tdata node /\
            keys (tchildren node') = keys (tchildren node))
  end.
Proof.
  intros D ns n s t Hok. rewrite forallb_app in Hok. apply andb_true_iff in Hok.
  destruct Hok as [Hns Hn]. simpl in Hn. rewrite andb_true_r in Hn.
  rewrite replace_subtree_unfold by assumption. rewrite walk_app.
  set (f := fun p : tree D => match p with
     Node d c => if dmem n c then Ok (Node d (dset n s c)) else Raise KeyError end).
  (* express the update as an update at ns ++ [n] *)
  assert (forall ns (t : tree D), update_at ns f t = update_at (ns ++ [n]) (fun _ => Ok s) t) as Heq.
  { clear. intros ns; induction ns as [|m r IH]; intros [d c]; simpl.
    - unfold dmem. destruct (dget n c); reflexivity.
    - destruct (dget m c); [|reflexivity]. now rewrite IH. }
  rewrite Heq. pose proof (update_at_walk D (ns ++ [n]) (fun _ => Ok s) t) as H.
  rewrite walk_app in H. destruct (bind (walk ns t) (walk [n])) as [x|e].
  - destruct H as (t' & H1 & H2). exists t'. split; [exact H1|]. split; [exact H2|]. split.
    + intros q Hq1 Hq2. eapply walk_update_other; eauto.
    + intros q m r node E Hw. rewrite <- E in H1. eapply walk_update_anc; eauto.
  - tauto.
Qed.
