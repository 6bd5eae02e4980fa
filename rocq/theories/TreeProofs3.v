(** ConfigTree flattening, by embedding config trees into parameter trees with one key. *)
From Verif Require Import Base TreeModel TreeSpec TreeProofs.

Section C.
Context {V : Type}.
Implicit Types t : tree V.

Fixpoint emb (t : tree V) : ptree V :=
  match t with Node v c => Node [("", v)] (map (fun nc => (fst nc, emb (snd nc))) c) end.

Lemma dget_emb : forall n (c : list (string * tree V)),
  dget n (map (fun nc => (fst nc, emb (snd nc))) c) = option_map emb (dget n c).
Proof.
  intros n c; induction c as [|[m s] r IH]; simpl; [reflexivity|].
  destruct (String.eqb n m); auto.
Qed.

Lemma dset_emb : forall n s (c : list (string * tree V)),
  dset n (emb s) (map (fun nc => (fst nc, emb (snd nc))) c) =
  map (fun nc => (fst nc, emb (snd nc))) (dset n s c).
Proof.
  intros n s c; induction c as [|[m x] r IH]; simpl; [reflexivity|].
  destruct (String.eqb n m); simpl; [reflexivity|]. now rewrite IH.
Qed.

Definition cset_path (p : list string) (v : V) (t : tree V) : result (tree V) :=
  update_at p (fun n => match n with Node _ c => Ok (Node v c) end) t.

Lemma set_loc_emb : forall p v t, set_loc (p, "") v (emb t) = fmap emb (cset_path p v t).
Proof.
  intros p v; unfold set_loc, cset_path; simpl. induction p as [|n r IH]; intros [d c]; simpl.
  - reflexivity.
  - rewrite dget_emb. destruct (dget n c) as [s|]; simpl; [|reflexivity]. rewrite IH.
    destruct (update_at r _ s); simpl; [|reflexivity]. now rewrite dset_emb.
Qed.

Lemma leaves_emb : forall t, leaves (emb t) = map (fun pd => ((fst pd, ""), snd pd)) (nodes t).
Proof.
  intros t. induction t as [d c IH] using tree_ind2. cbn [emb leaves nodes]. simpl. f_equal.
  induction c as [|[n s] r IHr]; simpl; [reflexivity|]. inversion IH as [|? ? H1 H2]; subst.
  rewrite map_app. f_equal; [|apply IHr; exact H2]. simpl in H1. rewrite H1, !map_map.
  apply map_ext. now intros [p x].
Qed.

Lemma emb_inj : forall t1 t2, emb t1 = emb t2 -> t1 = t2.
Proof.
  intros t1. induction t1 as [d c IH] using tree_ind2. intros [d2 c2] H. simpl in H.
  inversion H as [[H1 H2]]. f_equal. clear -IH H2. revert c2 H2.
  induction c as [|[n s] r IHr]; intros [|[n2 s2] r2] H; simpl in *; try discriminate; [reflexivity|].
  inversion IH; subst. inversion H; subst. f_equal; [f_equal; auto | auto].
Qed.

Lemma emb_uniq : forall t, uniq_p (emb t) = uniq_c t.
Proof.
  intros t. unfold uniq_p, uniq_c. induction t as [d c IH] using tree_ind2. cbn [emb uniq].
  f_equal; [|].
  - simpl. f_equal. unfold keys. now rewrite map_map.
  - induction c as [|[n s] r IHr]; simpl; [reflexivity|]. inversion IH; subst. f_equal; auto.
Qed.

Lemma emb_named : forall t, named_p (emb t) = named_c t.
Proof.
  intros t. unfold named_p, named_c. induction t as [d c IH] using tree_ind2. cbn [emb named].
  f_equal; [|].
  - simpl. f_equal. unfold keys. now rewrite map_map.
  - induction c as [|[n s] r IHr]; simpl; [reflexivity|]. inversion IH; subst. f_equal; auto.
Qed.

Lemma shape_emb : forall t1 t2, shape (emb t1) = shape (emb t2) <-> cshape t1 = cshape t2.
Proof.
  intros t1. induction t1 as [d c IH] using tree_ind2. intros [d2 c2]. simpl.
  split; intro H; inversion H as [H1]; f_equal; clear H.
  - revert c2 H1. induction c as [|[n s] r IHr]; intros [|[n2 s2] r2] H; simpl in *;
      try discriminate; [reflexivity|]. inversion IH as [|? ? I1 I2]; subst. inversion H; subst.
    f_equal; [f_equal; apply I1; auto | apply IHr; auto].
  - revert c2 H1. induction c as [|[n s] r IHr]; intros [|[n2 s2] r2] H; simpl in *;
      try discriminate; [reflexivity|]. inversion IH as [|? ? I1 I2]; subst. inversion H; subst.
    f_equal; [f_equal; apply I1; auto | apply IHr; auto].
Qed.

Lemma foldM_emb : forall (lvs : list (list string * V)) t,
  foldM (fun (u : ptree V) lv => set_loc (fst lv) (snd lv) u) (map (fun pd => ((fst pd, ""), snd pd)) lvs) (emb t)
  = fmap emb (foldM (fun t pd => cset_path (fst pd) (snd pd) t) lvs t).
Proof.
  intros lvs; induction lvs as [|[p v] r IH]; intros t; simpl; [reflexivity|].
  rewrite set_loc_emb. destruct (cset_path p v t) as [t'|]; simpl; [|reflexivity]. apply IH.
Qed.

Lemma cset_all : forall (pds : list (list string * V)) t,
  uniq_c t = true -> map fst pds = map fst (nodes t) ->
  exists t', foldM (fun t pd => cset_path (fst pd) (snd pd) t) pds t = Ok t' /\
    cshape t' = cshape t /\ nodes t' = pds.
Proof.
  intros pds t Hu Hm. rewrite <- emb_uniq in Hu.
  destruct (set_all V (map (fun pd => ((fst pd, ""), snd pd)) pds) (emb t) Hu) as (te & H1 & H2 & H3).
  { unfold leaf_locs. rewrite leaves_emb, !map_map. cbn [fst].
    rewrite <- (map_map fst (fun p : list string => ((p, "") : loc)) pds).
    rewrite <- (map_map fst (fun p : list string => ((p, "") : loc)) (nodes t)).
    now rewrite Hm. }
  rewrite foldM_emb in H1. destruct (foldM _ pds t) as [t'|]; [|discriminate].
  inversion H1; subst te. exists t'. split; [reflexivity|]. split; [now apply shape_emb|].
  rewrite leaves_emb in H3. clear -H3. revert pds H3. generalize (nodes t') as a.
  intro a; induction a as [|[p v] r IH]; intros [|[p2 v2] r2] H; simpl in *; try discriminate; auto.
  inversion H; subst. f_equal. auto.
Qed.

(** keys *)
Definition ckey (prefix : string) (p : list string) : string :=
  join dot (if String.eqb prefix "" then p else prefix :: p).

Lemma nodes_paths_ok : forall t, named_c t = true ->
  forall p, In p (map fst (nodes t)) -> forallb name_ok p = true.
Proof.
  intros t H p Hp. rewrite <- emb_named in H.
  assert (In ((p, "") : loc) (leaf_locs (emb t))) as Hi.
  { unfold leaf_locs. rewrite leaves_emb, map_map. apply in_map_iff in Hp.
    destruct Hp as (x & <- & Hx). apply in_map_iff. exists x. auto. }
  pose proof (leaves_loc_ok V (emb t) H _ Hi) as Hl. unfold loc_ok in Hl. simpl in Hl.
  apply andb_true_iff in Hl. tauto.
Qed.

Lemma NoDup_nodes : forall t, uniq_c t = true -> NoDup (map fst (nodes t)).
Proof.
  intros t H. rewrite <- emb_uniq in H. apply NoDup_leaf_locs in H. unfold leaf_locs in H.
  rewrite leaves_emb, map_map in H. cbn [fst] in H.
  rewrite <- (map_map fst (fun p : list string => ((p, "") : loc))) in H.
  now apply NoDup_map_inv in H.
Qed.

Lemma names_join_inv : forall p, forallb name_ok p = true -> subtree_names dot (join dot p) = p.
Proof.
  intros p H. apply subtree_names_join; [now apply names_ok_clean|]. intros ->. discriminate.
Qed.

Definition cflat (pds : list (list string * V)) : dict V := map (fun pd => (join dot (fst pd), snd pd)) pds.

Lemma NoDup_cflat : forall t, uniq_c t = true -> named_c t = true -> NoDup (keys (cflat (nodes t))).
Proof.
  intros t Hu Hn. unfold keys, cflat. rewrite map_map. cbn [fst].
  rewrite <- (map_map fst (join dot)). apply NoDup_map_inj; [|now apply NoDup_nodes].
  intros x y Hx Hy E. rewrite <- (names_join_inv x), <- (names_join_inv y)
    by (eapply nodes_paths_ok; eauto). now rewrite E.
Qed.

Definition cpre (prefix : string) (pds : list (list string * V)) : dict V :=
  map (fun pd => (ckey prefix (fst pd), snd pd)) pds.

Lemma uniq_c_node : forall (d : V) c, uniq_c (Node d c) = true <->
  NoDup (keys c) /\ Forall (fun nc => uniq_c (snd nc) = true) c.
Proof. intros. unfold uniq_c. rewrite uniq_node. tauto. Qed.
Lemma named_c_node : forall (d : V) c, named_c (Node d c) = true <->
  forallb name_ok (keys c) = true /\ Forall (fun nc => named_c (snd nc) = true) c.
Proof. intros. unfold named_c. simpl. rewrite andb_true_iff, !forallb_forall, Forall_forall. tauto. Qed.

Lemma NoDup_cpre : forall prefix t, uniq_c t = true -> named_c t = true ->
  (prefix = "" \/ name_ok prefix = true) -> NoDup (keys (cpre prefix (nodes t))).
Proof.
  intros prefix t Hu Hn Hp. unfold keys, cpre. rewrite map_map. cbn [fst].
  rewrite <- (map_map fst (ckey prefix)). apply NoDup_map_inj; [|now apply NoDup_nodes].
  intros x y Hx Hy E. apply (nodes_paths_ok t Hn) in Hx. apply (nodes_paths_ok t Hn) in Hy.
  unfold ckey in E. destruct (String.eqb_spec prefix "") as [E0|E0].
  - rewrite <- (names_join_inv x), <- (names_join_inv y) by assumption. now rewrite E.
  - destruct Hp as [Hp|Hp]; [contradiction|].
    assert (prefix :: x = prefix :: y) as E2; [|congruence].
    rewrite <- (names_join_inv (prefix :: x)), <- (names_join_inv (prefix :: y));
      [now rewrite E | |]; simpl; rewrite Hp; assumption.
Qed.

Lemma ckey_cons : forall prefix n p, name_ok n = true ->
  pre prefix (ckey n p) = ckey prefix (n :: p).
Proof.
  intros prefix n p H. unfold pre, ckey. unfold name_ok in H. apply andb_true_iff in H.
  destruct H as [_ H]. apply negb_true_iff in H. rewrite H.
  destruct (String.eqb prefix ""); reflexivity.
Qed.

Lemma cmake_flat_dict_spec : forall t prefix, uniq_c t = true -> named_c t = true ->
  (prefix = "" \/ name_ok prefix = true) ->
  cmake_flat_dict prefix t = cpre prefix (nodes t).
Proof.
  intros t. induction t as [d c IH] using tree_ind2. intros prefix Hu Hn Hp.
  pose proof (NoDup_cpre prefix _ Hu Hn Hp) as Hnd.
  apply uniq_c_node in Hu. destruct Hu as (Hkc & Huc).
  apply named_c_node in Hn. destruct Hn as (Hnc & Hncc).
  cbn [nodes] in *. unfold cpre in *. cbn [map fst snd] in *.
  assert (ckey prefix [] = prefix) as E0.
  { unfold ckey. destruct (String.eqb_spec prefix ""); simpl; auto. }
  rewrite E0 in *. cbn [cmake_flat_dict].
  change ((prefix, d) :: map (fun pd : list string * V => (ckey prefix (fst pd), snd pd))
     (flat_map (fun nc : string * tree V => map (fun pd : list string * V => (fst nc :: fst pd, snd pd)) (nodes (snd nc))) c))
    with ([(prefix, d)] ++ map (fun pd : list string * V => (ckey prefix (fst pd), snd pd))
     (flat_map (fun nc : string * tree V => map (fun pd : list string * V => (fst nc :: fst pd, snd pd)) (nodes (snd nc))) c)) in *.
  revert Hnd. generalize [(prefix, d)] as acc.
  induction c as [|[n s] r IHr]; intros acc Hnd; cbn [flat_map map].
  - now rewrite app_nil_r.
  - inversion IH as [|? ? IHs IHr']; subst. inversion Huc as [|? ? Hus Hur]; subst.
    inversion Hncc as [|? ? Hns Hnr]; subst. inversion Hkc; subst. cbn [snd fst] in *.
    cbn [keys map forallb fst] in Hnc. apply andb_true_iff in Hnc. destruct Hnc as [Hn1 Hn2].
    rewrite IHs by auto.
    rewrite add_prefix_nodup by (apply NoDup_cpre; auto).
    assert (map (fun kv : string * V => (pre prefix (fst kv), snd kv)) (cpre n (nodes s)) =
            map (fun pd : list string * V => (ckey prefix (fst pd), snd pd))
              (map (fun pd : list string * V => (n :: fst pd, snd pd)) (nodes s))) as E.
    { unfold cpre. rewrite !map_map. apply map_ext. intros [p v]. cbn [fst snd].
      now rewrite ckey_cons. }
    unfold cpre in E. rewrite E.
    cbn [flat_map fst snd] in Hnd. rewrite map_app, app_assoc in Hnd.
    rewrite dupdate_app.
    + rewrite IHr; auto. rewrite map_app. now rewrite <- app_assoc.
    + unfold keys in Hnd. rewrite map_app in Hnd. apply NoDup_app_inv in Hnd. tauto.
Qed.

Lemma cmake_flat_dict_root : forall t, uniq_c t = true -> named_c t = true ->
  cmake_flat_dict "" t = cflat (nodes t).
Proof. intros t Hu Hn. rewrite cmake_flat_dict_spec by auto. reflexivity. Qed.

Lemma cset_leaves_paths : forall (pds : list (list string * V)) t,
  (forall p, In p (map fst pds) -> forallb name_ok p = true) ->
  cset_leaves (cflat pds) t = foldM (fun t pd => cset_path (fst pd) (snd pd) t) pds t.
Proof.
  intros pds; induction pds as [|[p v] r IH]; intros t H; simpl; [reflexivity|].
  unfold cset_leaves in *. simpl. unfold cset_leaf. rewrite names_join_inv by (apply H; simpl; auto).
  fold (cset_path p v t). destruct (cset_path p v t); [|reflexivity].
  apply IH. intros. apply H. simpl; auto.
Qed.

Lemma cnodes_ext : forall t1 t2, cshape t1 = cshape t2 -> map snd (nodes t1) = map snd (nodes t2) -> t1 = t2.
Proof.
  intros t1 t2 Hs Hv. apply emb_inj. apply shape_leaf_values_eq; [now apply shape_emb|].
  unfold leaf_values. rewrite !leaves_emb, !map_map. exact Hv.
Qed.

Lemma cshape_paths : forall t1 t2, cshape t1 = cshape t2 -> map fst (nodes t1) = map fst (nodes t2).
Proof.
  intros t1 t2 H. apply shape_emb in H. apply shape_leaf_locs in H. unfold leaf_locs in H.
  rewrite !leaves_emb, !map_map in H. cbn [fst] in H.
  revert H. generalize (nodes t1) (nodes t2). intros a; induction a as [|[p v] r IH];
  intros [|[p2 v2] r2] H; simpl in *; try discriminate; auto. inversion H. f_equal. auto.
Qed.

Lemma cflat_roundtrip_general : forall (dummy : V) t (vals : list V), uniq_c t = true -> named_c t = true ->
  List.length vals = List.length (nodes t) ->
  exists td, cmake_tree_def dummy t = Ok td /\
  exists t', cfrom_flat_dict td (cflat (combine (map fst (nodes t)) vals)) = Ok t' /\
    cshape t' = cshape t /\ nodes t' = combine (map fst (nodes t)) vals.
Proof.
  intros dummy t vals Hu Hn Hl. unfold cmake_tree_def.
  rewrite from_to_dict with (ok := fun _ => true) by exact Hu. cbn [bind].
  rewrite cmake_flat_dict_root by assumption.
  assert (map (fun kv : string * V => (fst kv, dummy)) (cflat (nodes t)) =
          cflat (combine (map fst (nodes t)) (map (fun _ => dummy) (nodes t)))) as E.
  { rewrite <- combine_const. unfold cflat. rewrite !map_map. reflexivity. }
  rewrite E. clear E.
  assert (forall vs (t0 : tree V), List.length vs = List.length (nodes t) -> cshape t0 = cshape t -> uniq_c t0 = true ->
    exists t', cset_leaves (cflat (combine (map fst (nodes t)) vs)) t0 = Ok t' /\
      cshape t' = cshape t /\ nodes t' = combine (map fst (nodes t)) vs) as Hset.
  { intros vs t0 Hlv Hs0 Hu0. rewrite cset_leaves_paths.
    - destruct (cset_all (combine (map fst (nodes t)) vs) t0 Hu0) as (t' & H1 & H2 & H3).
      + rewrite combine_map_fst by (now rewrite map_length). symmetry. now apply cshape_paths.
      + exists t'. repeat split; auto. congruence.
    - intros p Hp. rewrite combine_map_fst in Hp by (now rewrite map_length).
      eapply nodes_paths_ok; eauto. }
  assert (forall t0, cshape t0 = cshape t -> uniq_c t0 = true) as Hcu.
  { intros t0 Hs0. rewrite <- emb_uniq. rewrite <- emb_uniq in Hu. eapply shape_uniq; [|exact Hu].
    apply shape_emb. auto. }
  destruct (Hset (map (fun _ => dummy) (nodes t)) t) as (td & H1 & H2 & H3);
    [now rewrite map_length | reflexivity | assumption |].
  rewrite H1. cbn [bind]. exists (to_dict td). split; [reflexivity|].
  unfold cfrom_flat_dict. rewrite from_to_dict with (ok := fun _ => true) by (apply Hcu; assumption).
  cbn [bind]. apply Hset; auto.
Qed.

Lemma cflat_roundtrip : forall (dummy : V) t, uniq_c t = true -> named_c t = true ->
  exists td, cmake_tree_def dummy t = Ok td /\ cfrom_flat_dict td (cmake_flat_dict "" t) = Ok t.
Proof.
  intros dummy t Hu Hn.
  destruct (cflat_roundtrip_general dummy t (map snd (nodes t)) Hu Hn) as (td & E & t' & H1 & H2 & H3).
  { now rewrite map_length. }
  exists td. split; [exact E|]. rewrite cmake_flat_dict_root by assumption.
  rewrite combine_split_map in *. rewrite H1. f_equal. apply cnodes_ext; [assumption|]. now rewrite H3.
Qed.
End C.
