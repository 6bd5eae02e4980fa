From Verif Require Import Base TreeModel TreeSpec.

Lemma tree_ind2 : forall D (P : tree D -> Prop),
  (forall d c, Forall (fun nc => P (snd nc)) c -> P (Node d c)) -> forall t, P t.
Proof.
  intros D P H. fix IH 1. intros [d c]. apply H.
  induction c as [|[n s] r IHr]; constructor; [exact (IH s) | exact IHr].
Qed.

(** ** C01 *)
Lemma uniq_node : forall D ok (d : D) c, uniq ok (Node d c) = true <->
  ok d = true /\ NoDup (keys c) /\ Forall (fun nc => uniq ok (snd nc) = true) c.
Proof.
  intros. simpl. rewrite !andb_true_iff, nodupb_spec, forallb_forall, Forall_forall. tauto.
Qed.

Lemma from_to_dict : forall D ok (t : tree D), uniq ok t = true -> from_dict (to_dict t) = Ok t.
Proof.
  intros D ok t. induction t as [d c IH] using tree_ind2. intro Hu.
  apply uniq_node in Hu. destruct Hu as (_ & Hnd & Hc).
  cbn [to_dict]. cbn.
  change c with ([] ++ c) at 2. change c with ([] ++ c) in Hnd.
  revert Hnd. generalize (@nil (string * tree D)) as acc.
  induction c as [|[n s] r IHr]; intros acc Hnd; cbn.
  - now rewrite app_nil_r.
  - inversion IH as [|? ? IHs IHrest]; subst. inversion Hc as [|? ? Hs Hrest]; subst.
    simpl in IHs, Hs. rewrite IHs by assumption.
    rewrite dset_notin.
    + rewrite IHr; auto; rewrite <- app_assoc; [reflexivity | exact Hnd].
    + unfold keys in Hnd. rewrite map_app in Hnd. apply NoDup_app_inv in Hnd.
      destruct Hnd as (_ & _ & H). intro Hi. apply (H n Hi). simpl; auto.
Qed.

(** Well-formed nested dictionaries (C01, other direction). *)
Fixpoint dict_ok {D} (p : pyval D) : bool :=
  match p with
  | PDict [(k1, PData _); (k2, PDict ch)] =>
      String.eqb k1 "data" && String.eqb k2 "children" && nodupb (keys ch) &&
      forallb (fun nc => dict_ok (snd nc)) ch
  | _ => false
  end.

Lemma to_dict_ok : forall D ok (t : tree D), uniq ok t = true -> dict_ok (to_dict t) = true.
Proof.
  intros D ok t. induction t as [d c IH] using tree_ind2. intro Hu.
  apply uniq_node in Hu. destruct Hu as (_ & Hnd & Hc). cbn [to_dict dict_ok].
  rewrite !String.eqb_refl. simpl. apply andb_true_iff. split.
  - apply nodupb_spec. unfold keys in *. now rewrite map_map.
  - rewrite forallb_forall. intros x Hx. apply in_map_iff in Hx. destruct Hx as (y & <- & Hy).
    rewrite Forall_forall in IH, Hc. simpl. apply IH; auto.
Qed.

Lemma dict_ok_to : forall D (p : pyval D), dict_ok p = true ->
  exists t, from_dict p = Ok t /\ to_dict t = p /\ uniq (fun _ => true) t = true.
Proof.
  intros D. fix IH 1. intros [d|kv]; [discriminate|].
  destruct kv as [|[k1 v1] kv]; [discriminate|].
  destruct v1 as [d|?]; [|discriminate].
  destruct kv as [|[k2 v2] kv]; [discriminate|].
  destruct v2 as [?|ch]; [discriminate|].
  destruct kv as [|? ?]; [|discriminate].
  cbn [dict_ok]. intro H. rewrite !andb_true_iff in H. destruct H as [[[H1 H2] H3] H4].
  apply String.eqb_eq in H1, H2. subst k1 k2. apply nodupb_spec in H3.
  assert (exists c, Forall2 (fun nc nt => from_dict (snd nc) = Ok (snd nt) /\
             to_dict (snd nt) = snd nc /\ fst nc = fst nt /\
             uniq (fun _ => true) (snd nt) = true) ch c) as [c Hc].
  { clear H3. induction ch as [|[n s] r IHr].
    - exists []. constructor.
    - cbn in H4. apply andb_true_iff in H4. destruct H4 as [Hs Hr].
      destruct (IH s Hs) as (t & Ht1 & Ht2 & Ht3). destruct (IHr Hr) as (c & Hc).
      exists ((n, t) :: c). constructor; [|exact Hc]. simpl. auto. }
  exists (Node d c).
  assert (keys ch = keys c) as Hk.
  { clear -Hc. induction Hc as [|x y ? ? (_ & _ & H & _) ? IHc]; simpl; [reflexivity|].
    now rewrite H, IHc. }
  assert (to_dict (Node d c) = PDict [("data", PData d); ("children", PDict ch)]) as Ht.
  { simpl. repeat f_equal. clear -Hc. induction Hc as [|[n s] [m t] ? ? (_ & H1 & H2 & _) ? IHc];
      simpl in *; [reflexivity|]. subst. now f_equal. }
  assert (uniq (fun _ => true) (Node d c) = true) as Hu.
  { apply uniq_node. split; [reflexivity|]. split; [now rewrite <- Hk|].
    clear -Hc. induction Hc as [|x y ? ? (_ & _ & _ & H) ? IHc]; constructor; auto. }
  split; [|split; auto]. rewrite <- Ht. now apply from_to_dict with (ok := fun _ => true).
Qed.

(** ** Locations *)
Definition get_loc {V} (l : loc) (t : ptree V) : result V :=
  bind (walk (fst l) t) (fun n => lookup_err (snd l) (tdata n)).
Definition set_data {V} (k : string) (v : V) (n : ptree V) : result (ptree V) :=
  match n with Node d c => Ok (Node (dset k v d) c) end.
Definition set_loc {V} (l : loc) (v : V) (t : ptree V) : result (ptree V) :=
  update_at (fst l) (set_data (snd l) v) t.
Definition resolve (delim : ascii) (path : string) : loc :=
  (subtree_names dot (join delim (removelast (split delim path))), last (split delim path) "").

Lemma set_leaf_loc : forall V delim path (v : V) t,
  set_leaf delim path v t = set_loc (resolve delim path) v t.
Proof. reflexivity. Qed.
Lemma get_param_loc : forall V delim path (t : ptree V),
  get_param delim path t = get_loc (resolve delim path) t.
Proof. reflexivity. Qed.

Lemma get_set_same : forall V p k (v : V) t t',
  set_loc (p, k) v t = Ok t' -> get_loc (p, k) t' = Ok v.
Proof.
  intros V p; unfold set_loc, get_loc; simpl.
  induction p as [|n r IH]; intros k v t t' H; destruct t as [d c]; simpl in *.
  - inversion H; subst; simpl. unfold lookup_err. now rewrite dget_dset_same.
  - destruct (dget n c) as [s|] eqn:E; [|discriminate].
    destruct (update_at r (set_data k v) s) as [s'|] eqn:Es; [|discriminate].
    inversion H; subst. unfold get_child; simpl. unfold lookup_err at 1.
    rewrite dget_dset_same. simpl. eapply IH; eauto.
Qed.

Lemma get_set_other : forall V p k q k2 (v : V) t t',
  set_loc (p, k) v t = Ok t' -> (p, k) <> (q, k2) -> get_loc (q, k2) t' = get_loc (q, k2) t.
Proof.
  intros V p; unfold set_loc, get_loc; simpl.
  induction p as [|n r IH]; intros k q k2 v t t' H Hne; destruct t as [d c]; simpl in *.
  - inversion H; subst. destruct q as [|m q]; simpl.
    + unfold lookup_err. rewrite dget_dset_other; [reflexivity | congruence].
    + reflexivity.
  - destruct (dget n c) as [s|] eqn:E; [|discriminate].
    destruct (update_at r (set_data k v) s) as [s'|] eqn:Es; [|discriminate].
    inversion H; subst. destruct q as [|m q]; simpl; [reflexivity|].
    unfold get_child, lookup_err at 1 3; simpl.
    destruct (string_dec n m) as [<-|Hnm].
    + rewrite dget_dset_same, E. simpl. eapply IH; eauto. congruence.
    + now rewrite dget_dset_other.
Qed.

Lemma update_at_walk : forall D ns f (t : tree D),
  match walk ns t with
  | Raise e => e = KeyError /\ update_at ns f t = Raise KeyError
  | Ok s => match f s with
            | Raise e => update_at ns f t = Raise e
            | Ok s' => exists t', update_at ns f t = Ok t' /\ walk ns t' = Ok s'
            end
  end.
Proof.
  intros D ns f; induction ns as [|n r IH]; intros [d c]; simpl.
  - destruct (f (Node d c)); simpl; eauto.
  - unfold get_child, lookup_err; simpl. destruct (dget n c) as [s|] eqn:E; simpl; [|auto].
    specialize (IH s). destruct (walk r s) as [s1|e]; [destruct (f s1) as [s2|e]|].
    + destruct IH as (t' & H1 & H2). rewrite H1. simpl. eexists; split; [reflexivity|].
      simpl. unfold get_child, lookup_err; simpl. now rewrite dget_dset_same.
    + now rewrite IH.
    + destruct IH as [-> ->]. auto.
Qed.

Lemma set_loc_ok_iff : forall V l (v : V) t,
  (exists t', set_loc l v t = Ok t') <-> (exists n, walk (fst l) t = Ok n).
Proof.
  intros. unfold set_loc. pose proof (update_at_walk _ (fst l) (set_data (snd l) v) t) as H.
  destruct (walk (fst l) t) as [s|e].
  - destruct s as [d c]; simpl in H. destruct H as (t' & H & _). split; eauto.
  - destruct H as [_ ->]. split; intros [? ?]; discriminate.
Qed.

Lemma set_loc_err : forall V l (v : V) t e, set_loc l v t = Raise e -> e = KeyError.
Proof.
  intros. unfold set_loc in H. pose proof (update_at_walk _ (fst l) (set_data (snd l) v) t) as H0.
  destruct (walk (fst l) t) as [s|e2].
  - destruct s as [d c]; simpl in H0. destruct H0 as (t' & H0 & _). congruence.
  - destruct H0 as [_ H0]. congruence.
Qed.

(** Node-level frame: nodes off the path keep their data and children. *)
Lemma walk_update_other : forall D p f (t t' : tree D) q,
  update_at p f t = Ok t' -> (forall r, q <> p ++ r) -> (forall r, p <> q ++ r) ->
  walk q t' = walk q t.
Proof.
  intros D p; induction p as [|n r IH]; intros f [d c] t' q H H1 H2.
  - exfalso. now apply (H1 q).
  - simpl in H. destruct (dget n c) as [s|] eqn:E; [|discriminate].
    destruct (update_at r f s) as [s'|] eqn:Es; [|discriminate]. inversion H; subst.
    destruct q as [|m q]; [exfalso; now apply (H2 (n :: r))|].
    simpl. unfold get_child, lookup_err; simpl.
    destruct (string_dec n m) as [<-|Hnm].
    + rewrite dget_dset_same, E. simpl. eapply IH; eauto.
      * intros x Hx. apply (H1 x). now rewrite Hx.
      * intros x Hx. apply (H2 x). now rewrite Hx.
    + now rewrite dget_dset_other.
Qed.

Lemma walk_app : forall D p q (t : tree D), walk (p ++ q) t = bind (walk p t) (walk q).
Proof.
  intros D p; induction p as [|n r IH]; intros q t; simpl; [reflexivity|].
  destruct (get_child n t); simpl; auto.
Qed.

(** ancestors keep their data and their list of child names *)
Lemma walk_update_anc : forall D q r f (t t' s : tree D) n,
  update_at (q ++ n :: r) f t = Ok t' -> walk q t = Ok s ->
  exists s', walk q t' = Ok s' /\ tdata s' = tdata s /\ keys (tchildren s') = keys (tchildren s).
Proof.
  intros D q; induction q as [|m q IH]; intros r f [d c] t' s n H Hw; simpl in *.
  - destruct (dget n c) as [s0|] eqn:E; [|discriminate].
    destruct (update_at r f s0) as [s1|] eqn:Es; [|discriminate]. inversion H; subst.
    inversion Hw; subst. eexists; split; [reflexivity|]. simpl. split; [reflexivity|].
    apply keys_dset_in. apply dget_some_iff. eauto.
  - unfold get_child, lookup_err in *; simpl in *.
    destruct (dget m c) as [s0|] eqn:E; [|discriminate].
    destruct (update_at (q ++ n :: r) f s0) as [s1|] eqn:Es; [|discriminate]. inversion H; subst.
    simpl. rewrite dget_dset_same. simpl. eapply IH; eauto.
Qed.

(** ** Resolution of dotted strings *)
Lemma removelast_clean : forall l, forallb (no_char dot) l = true ->
  forallb (no_char dot) (removelast l) = true.
Proof.
  intros l; induction l as [|x r IH]; simpl; [auto|]. intro H. apply andb_true_iff in H.
  destruct r; [reflexivity|]. simpl in *. rewrite IH; [rewrite (proj1 H); reflexivity | tauto].
Qed.

Lemma join_nonempty : forall l, l <> [] -> l <> [""] -> join dot l <> "".
Proof.
  intros [|s [|s2 r]] H1 H2; [congruence | |].
  - simpl. intro; subst; congruence.
  - simpl. destruct s; discriminate.
Qed.

Lemma subtree_names_join : forall l, forallb (no_char dot) l = true -> l <> [""] ->
  subtree_names dot (join dot l) = l.
Proof.
  intros l Hc Hne. unfold subtree_names.
  destruct l as [|s r]; [reflexivity|].
  destruct (String.eqb_spec (join dot (s :: r)) "") as [E|E].
  - exfalso. revert E. apply join_nonempty; [discriminate | assumption].
  - apply split_join; [discriminate | assumption].
Qed.

Lemma resolve_nodot : forall p, starts_dot p = false ->
  resolve dot p = (removelast (split dot p), last (split dot p) "").
Proof.
  intros p Hp. unfold resolve. f_equal. apply subtree_names_join.
  - apply removelast_clean, split_components_clean.
  - intro E. pose proof (split_not_nil dot p) as Hn.
    pose proof (app_removelast_last "" Hn) as Hs. rewrite E in Hs. simpl in Hs.
    assert (p = join dot (split dot p)) as Hj by (symmetry; apply join_split).
    rewrite Hs in Hj. simpl in Hj. rewrite Hj in Hp. simpl in Hp. discriminate.
Qed.

Lemma resolve_inj : forall p q, starts_dot p = false -> starts_dot q = false ->
  resolve dot p = resolve dot q -> p = q.
Proof.
  intros p q Hp Hq H. rewrite !resolve_nodot in H by assumption. inversion H as [[H1 H2]].
  apply (split_inj dot). rewrite (app_removelast_last "" (split_not_nil dot p)).
  rewrite (app_removelast_last "" (split_not_nil dot q)). congruence.
Qed.

Definition loc_ok (l : loc) : bool := forallb name_ok (fst l) && key_ok (snd l).

Lemma names_ok_clean : forall l, forallb name_ok l = true -> forallb (no_char dot) l = true.
Proof.
  intros l H. rewrite forallb_forall in *. intros x Hx. specialize (H x Hx).
  unfold name_ok in H. apply andb_true_iff in H. tauto.
Qed.

Lemma resolve_dotted : forall l, loc_ok l = true -> resolve dot (dotted l) = l.
Proof.
  intros [p k] H. unfold loc_ok in H; simpl in H. apply andb_true_iff in H. destruct H as [Hp Hk].
  unfold resolve, dotted; simpl. rewrite split_join.
  - rewrite removelast_last, last_last. f_equal. apply subtree_names_join.
    + now apply names_ok_clean.
    + intros ->. discriminate.
  - destruct p; discriminate.
  - rewrite forallb_app. rewrite names_ok_clean by assumption. simpl. unfold key_ok in Hk.
    now rewrite Hk.
Qed.

Lemma dotted_inj : forall l1 l2, loc_ok l1 = true -> loc_ok l2 = true ->
  dotted l1 = dotted l2 -> l1 = l2.
Proof.
  intros l1 l2 H1 H2 H. rewrite <- (resolve_dotted l1), <- (resolve_dotted l2) by assumption.
  now rewrite H.
Qed.

(** ** Leaves enumerate exactly the readable locations *)
Lemma uniq_p_node : forall V (d : dict V) c, uniq_p (Node d c) = true <->
  NoDup (keys d) /\ NoDup (keys c) /\ Forall (fun nc => uniq_p (snd nc) = true) c.
Proof. intros. unfold uniq_p. rewrite uniq_node. now rewrite nodupb_spec. Qed.

Lemma in_leaves_get : forall V (t : ptree V), uniq_p t = true ->
  forall l v, In (l, v) (leaves t) <-> get_loc l t = Ok v.
Proof.
  intros V t. induction t as [d c IH] using tree_ind2. intro Hu.
  apply uniq_p_node in Hu. destruct Hu as (Hd & Hnd & Hc).
  intros [p k] v. cbn [leaves]. rewrite in_app_iff, in_map_iff, in_flat_map.
  unfold get_loc; simpl. destruct p as [|n r]; simpl.
  - split.
    + intros [([k' v'] & E & Hi)|((n & s) & Hi & Hm)].
      * inversion E; subst; simpl in *. unfold lookup_err. now rewrite in_dget with (v := v).
      * apply in_map_iff in Hm. destruct Hm as ([[? ?] ?] & E & _). inversion E.
    + intro H. left. exists (k, v). split; [reflexivity|]. unfold lookup_err in H.
      destruct (dget k d) eqn:E; inversion H; subst. now apply dget_in.
  - unfold get_child, lookup_err at 1; simpl. rewrite Forall_forall in IH, Hc. split.
    + intros [([k' v'] & E & Hi)|((n' & s) & Hi & Hm)]; [inversion E|].
      apply in_map_iff in Hm. destruct Hm as ([[p' k'] v'] & E & Hl). inversion E; subst.
      simpl in *. rewrite in_dget with (v := s); auto. simpl.
      specialize (IH (n, s) Hi). simpl in IH. apply (IH (Hc _ Hi) (r, k) v). exact Hl.
    + intro H. right. destruct (dget n c) as [s|] eqn:E; [|discriminate]. simpl in H.
      apply dget_in in E. exists (n, s). split; [exact E|].
      apply in_map_iff. exists ((r, k), v). split; [reflexivity|].
      apply (IH (n, s) E (Hc _ E) (r, k) v). exact H.
Qed.

Lemma NoDup_map_inj : forall A B (f : A -> B) l, (forall x y, In x l -> In y l -> f x = f y -> x = y) ->
  NoDup l -> NoDup (map f l).
Proof.
  intros A B f l; induction l as [|a r IH]; simpl; intros Hf Hn; [constructor|].
  inversion Hn; subst. constructor.
  - intro Hi. apply in_map_iff in Hi. destruct Hi as (y & Hy & Hi).
    assert (y = a) by (apply Hf; auto). subst. contradiction.
  - apply IH; auto.
Qed.

Lemma NoDup_leaf_locs : forall V (t : ptree V), uniq_p t = true -> NoDup (leaf_locs t).
Proof.
  intros V t. unfold leaf_locs. induction t as [d c IH] using tree_ind2. intro Hu.
  apply uniq_p_node in Hu. destruct Hu as (Hd & Hnd & Hc). cbn [leaves]. rewrite map_app.
  apply NoDup_app_intro.
  - rewrite map_map. simpl.
    rewrite <- (map_map fst (fun k : string => ((@nil string, k) : loc))).
    apply NoDup_map_inj; [congruence | exact Hd].
  - clear Hd. induction c as [|[n s] r IHr]; simpl; [constructor|].
    inversion IH as [|? ? IHs IHr']; subst. inversion Hc as [|? ? Hs Hr]; subst.
    inversion Hnd as [|? ? Hnn Hnr]; subst. rewrite map_app. apply NoDup_app_intro.
    + rewrite map_map. simpl.
      rewrite <- (map_map fst (fun l : loc => ((n :: fst l, snd l) : loc))).
      apply NoDup_map_inj; [|apply IHs; exact Hs].
      intros [p k] [p2 k2] _ _ E. simpl in E. congruence.
    + apply IHr; auto.
    + intros [p k] Hi Hj. rewrite map_map in Hi. apply in_map_iff in Hi.
      destruct Hi as ([[p1 k1] v1] & E & _). simpl in E. inversion E; subst.
      apply in_map_iff in Hj. destruct Hj as ([[p2 k2] v2] & E2 & Hj). simpl in E2.
      inversion E2; subst. apply in_flat_map in Hj. destruct Hj as ((m & s') & Hm & Hx).
      apply in_map_iff in Hx. destruct Hx as (y & E3 & _). inversion E3; subst.
      apply Hnn. apply in_map_iff. exists (n, s'). auto.
  - intros [p k] Hi Hj. rewrite map_map in Hi. apply in_map_iff in Hi.
    destruct Hi as ([k1 v1] & E & _). simpl in E. inversion E; subst.
    apply in_map_iff in Hj. destruct Hj as ([[p2 k2] v2] & E2 & Hj). simpl in E2.
    inversion E2; subst. apply in_flat_map in Hj. destruct Hj as ((m & s') & Hm & Hx).
    apply in_map_iff in Hx. destruct Hx as (y & E3 & _). inversion E3.
Qed.

(** ** Shapes *)
Lemma shape_leaf_locs : forall V W (t1 : ptree V) (t2 : ptree W),
  shape t1 = shape t2 -> leaf_locs t1 = leaf_locs t2.
Proof.
  intros V W t1. unfold leaf_locs. induction t1 as [d c IH] using tree_ind2.
  intros [d2 c2] H. simpl in H. inversion H as [[Hd Hc]]. cbn [leaves]. rewrite !map_app. f_equal.
  - rewrite !map_map. simpl.
    assert (map fst d = map fst d2) as E.
    { transitivity (map fst (map (fun kv : string * V => (fst kv, tt)) d)).
      - rewrite map_map. reflexivity.
      - rewrite Hd, map_map. reflexivity. }
    rewrite <- (map_map fst (fun k : string => ((@nil string, k) : loc)) d).
    rewrite <- (map_map fst (fun k : string => ((@nil string, k) : loc)) d2). now rewrite E.
  - clear Hd H. revert c2 Hc. induction c as [|[n s] r IHr]; intros [|[n2 s2] r2] Hc;
      simpl in *; try discriminate; [reflexivity|].
    inversion IH as [|? ? IHs IHr']; subst. inversion Hc as [[H1 H2 H3]]. subst n2.
    rewrite !map_app. f_equal.
    + rewrite !map_map. simpl.
      transitivity (map (fun l : loc => ((n :: fst l, snd l) : loc)) (map fst (leaves s))).
      * rewrite map_map. reflexivity.
      * cbn [snd] in IHs. rewrite (IHs s2 H2). rewrite map_map. reflexivity.
    + apply IHr; auto.
Qed.

Lemma shape_uniq : forall V W (t1 : ptree V) (t2 : ptree W),
  shape t1 = shape t2 -> uniq_p t1 = true -> uniq_p t2 = true.
Proof.
  intros V W t1. induction t1 as [d c IH] using tree_ind2.
  intros [d2 c2] H Hu. simpl in H. inversion H as [[Hd Hc]].
  apply uniq_p_node in Hu. destruct Hu as (H1 & H2 & H3). apply uniq_p_node.
  assert (keys d = keys d2) as E.
  { unfold keys. transitivity (map fst (map (fun kv : string * V => (fst kv, tt)) d)).
    - rewrite map_map. reflexivity.
    - rewrite Hd, map_map. reflexivity. }
  split; [now rewrite <- E|].
  assert (keys c = keys c2) as Ec.
  { unfold keys. transitivity (map fst (map (fun nc : string * ptree V => (fst nc, shape (snd nc))) c)).
    - rewrite map_map. reflexivity.
    - rewrite Hc, map_map. reflexivity. }
  split; [now rewrite <- Ec|].
  clear -IH Hc H3. revert c2 Hc. induction c as [|[n s] r IHr]; intros [|[n2 s2] r2] Hc;
    simpl in *; try discriminate; constructor;
    inversion IH; subst; inversion H3; subst; inversion Hc; subst; simpl in *; auto.
Qed.

Lemma shape_named : forall V W (t1 : ptree V) (t2 : ptree W),
  shape t1 = shape t2 -> named_p t1 = named_p t2.
Proof.
  intros V W t1. unfold named_p. induction t1 as [d c IH] using tree_ind2.
  intros [d2 c2] H. simpl in H. inversion H as [[Hd Hc]]. simpl.
  assert (keys d = keys d2) as E.
  { unfold keys. transitivity (map fst (map (fun kv : string * V => (fst kv, tt)) d)).
    - rewrite map_map. reflexivity.
    - rewrite Hd, map_map. reflexivity. }
  assert (keys c = keys c2) as Ec.
  { unfold keys. transitivity (map fst (map (fun nc : string * ptree V => (fst nc, shape (snd nc))) c)).
    - rewrite map_map. reflexivity.
    - rewrite Hc, map_map. reflexivity. }
  rewrite E, Ec. f_equal. clear -IH Hc. revert c2 Hc.
  induction c as [|[n s] r IHr]; intros [|[n2 s2] r2] Hc; simpl in *; try discriminate; [reflexivity|].
  inversion IH; subst; inversion Hc; subst; simpl in *. f_equal; auto.
Qed.

Lemma map_unit_eq : forall V (a b : dict V),
  map (fun kv => (fst kv, tt)) a = map (fun kv => (fst kv, tt)) b -> map snd a = map snd b -> a = b.
Proof.
  intros V a; induction a as [|[k v] r IH]; intros [|[k2 v2] r2] H1 H2; simpl in *; try discriminate;
    [reflexivity|]. inversion H1; inversion H2; subst. f_equal. auto.
Qed.

Lemma app_inv_len : forall A (a b c d : list A), List.length a = List.length c ->
  a ++ b = c ++ d -> a = c /\ b = d.
Proof.
  intros A a; induction a as [|x r IH]; intros b [|y c] d Hl H; simpl in *; try discriminate; auto.
  inversion H; subst. destruct (IH b c d) as [-> ->]; auto.
Qed.

Lemma shape_leaf_values_eq : forall V (t1 t2 : ptree V),
  shape t1 = shape t2 -> leaf_values t1 = leaf_values t2 -> t1 = t2.
Proof.
  intros V t1. induction t1 as [d c IH] using tree_ind2.
  intros [d2 c2] H Hv. pose proof (shape_leaf_locs _ _ _ _ H) as Hlen. 
  simpl in H. inversion H as [[Hd Hc]].
  unfold leaf_values in Hv. cbn [leaves] in Hv. rewrite !map_app, !map_map in Hv. simpl in Hv.
  assert (List.length d = List.length d2) as Ld.
  { apply (f_equal (@List.length _)) in Hd. now rewrite !map_length in Hd. }
  apply app_inv_len in Hv; [|now rewrite !map_length]. destruct Hv as [Hv1 Hv2].
  f_equal; [now apply map_unit_eq|].
  clear -IH Hc Hv2. revert c2 Hc Hv2.
  induction c as [|[n s] r IHr]; intros [|[n2 s2] r2] Hc Hv; simpl in *; try discriminate; [reflexivity|].
  inversion IH; subst. inversion Hc as [[Hn Hs Hr]]; subst.
  rewrite !map_app, !map_map in Hv. simpl in Hv.
  apply app_inv_len in Hv.
  - destruct Hv as [Hv1 Hv2]. f_equal; [f_equal; apply H1; auto | apply IHr; auto].
  - rewrite !map_length. apply shape_leaf_locs in Hs. unfold leaf_locs in Hs.
    apply (f_equal (@List.length _)) in Hs. now rewrite !map_length in Hs.
Qed.

Lemma keys_unit_dset : forall V k (v : V) d, In k (keys d) ->
  map (fun kv => (fst kv, tt)) (dset k v d) = map (fun kv => (fst kv, tt)) d.
Proof.
  intros V k v d; induction d as [|[k' v'] r IH]; simpl; [tauto|]. intro H.
  destruct (String.eqb_spec k k'); simpl; [reflexivity|]. f_equal. apply IH.
  destruct H; [congruence | auto].
Qed.

Lemma shape_dset_child : forall V n (s s' : ptree V) c, dget n c = Some s -> shape s' = shape s ->
  map (fun nc => (fst nc, shape (snd nc))) (dset n s' c) =
  map (fun nc => (fst nc, shape (snd nc))) c.
Proof.
  intros V n s s' c; induction c as [|[m x] r IH]; simpl; [discriminate|].
  destruct (String.eqb_spec n m); simpl; intros H1 H2.
  - inversion H1; subst. now rewrite H2.
  - f_equal. auto.
Qed.

Lemma set_loc_existing : forall V p k (v v0 : V) t, get_loc (p, k) t = Ok v0 ->
  exists t', set_loc (p, k) v t = Ok t' /\ shape t' = shape t.
Proof.
  intros V p; unfold get_loc, set_loc; simpl.
  induction p as [|n r IH]; intros k v v0 [d c] H; simpl in *.
  - eexists; split; [reflexivity|]. simpl. f_equal. apply keys_unit_dset.
    unfold lookup_err in H. destruct (dget k d) eqn:E; [|discriminate].
    apply dget_some_iff; eauto.
  - unfold get_child in H. unfold lookup_err in H at 1. simpl in H.
    destruct (dget n c) as [s|] eqn:E; [|discriminate]. simpl in H.
    destruct (IH k v v0 s H) as (s' & Hs & Hsh). rewrite Hs. simpl.
    eexists; split; [reflexivity|]. simpl. f_equal. now apply shape_dset_child with (s := s).
Qed.

(** The loop setting many existing leaves. *)
Lemma set_many : forall V (lvs : list (loc * V)) t,
  uniq_p t = true -> NoDup (map fst lvs) -> (forall l, In l (map fst lvs) -> In l (leaf_locs t)) ->
  exists t', foldM (fun t lv => set_loc (fst lv) (snd lv) t) lvs t = Ok t' /\ shape t' = shape t /\
    (forall l v, In (l, v) lvs -> get_loc l t' = Ok v) /\
    (forall l, ~ In l (map fst lvs) -> get_loc l t' = get_loc l t).
Proof.
  intros V lvs; induction lvs as [|[l v] r IH]; intros t Hu Hn Hin; simpl.
  - exists t. repeat split; auto. simpl; tauto.
  - inversion Hn as [|? ? Hl Hr]; subst.
    assert (In l (leaf_locs t)) as Hlt by (apply Hin; simpl; auto).
    unfold leaf_locs in Hlt. apply in_map_iff in Hlt. destruct Hlt as ([l0 v0] & E & Hi).
    simpl in E; subst l0. apply in_leaves_get in Hi; [|assumption].
    destruct l as [p k]. destruct (set_loc_existing _ p k v v0 t Hi) as (t1 & Ht1 & Hs1).
    rewrite Ht1. 
    assert (uniq_p t1 = true) as Hu1 by (eapply shape_uniq; [symmetry; exact Hs1 | exact Hu]).
    destruct (IH t1 Hu1 Hr) as (t' & Ht' & Hs' & Hg & Hf).
    { intros x Hx. rewrite (shape_leaf_locs _ _ _ _ Hs1). apply Hin. simpl; auto. }
    exists t'. split; [exact Ht'|]. split; [congruence|]. split.
    + intros l2 v2 [E|Hi2].
      * inversion E; subst. rewrite Hf by assumption. eapply get_set_same; eauto.
      * apply Hg; assumption.
    + intros [q k2] Hnot. rewrite Hf by tauto. eapply get_set_other; eauto.

Qed.

Lemma assoc_eq : forall A B (a b : list (A * B)), NoDup (map fst a) -> map fst a = map fst b ->
  (forall x, In x b -> In x a) -> a = b.
Proof.
  intros A B a; induction a as [|[k v] r IH]; intros [|[k2 v2] r2] Hn Hm Hi; simpl in *;
    try discriminate; [reflexivity|].
  inversion Hm; subst. inversion Hn as [|? ? Hk Hr]; subst. f_equal.
  - destruct (Hi (k2, v2) (or_introl eq_refl)) as [E|E]; [assumption|].
    exfalso. apply Hk. apply in_map_iff. exists (k2, v2). auto.
  - apply IH; auto. intros x Hx. destruct (Hi x (or_intror Hx)) as [E|E]; [|assumption].
    subst x. exfalso. apply Hk. rewrite H1. apply in_map_iff. exists (k2, v). auto.
Qed.

Lemma set_all : forall V (lvs : list (loc * V)) t,
  uniq_p t = true -> map fst lvs = leaf_locs t ->
  exists t', foldM (fun t lv => set_loc (fst lv) (snd lv) t) lvs t = Ok t' /\ shape t' = shape t /\
    leaves t' = lvs.
Proof.
  intros V lvs t Hu Hm.
  destruct (set_many V lvs t Hu) as (t' & H1 & H2 & H3 & _).
  - rewrite Hm. now apply NoDup_leaf_locs.
  - rewrite Hm. auto.
  - exists t'. split; [assumption|]. split; [assumption|].
    assert (uniq_p t' = true) as Hu' by (eapply shape_uniq; [symmetry; exact H2 | exact Hu]).
    apply assoc_eq.
    + now apply NoDup_leaf_locs in Hu'.
    + change (map fst (leaves t')) with (leaf_locs t'). rewrite Hm. now apply shape_leaf_locs.
    + intros [l v] Hi. apply in_leaves_get; auto.
Qed.

(** ** The flat dictionary *)
Definition pre (prefix s : string) : string :=
  if String.eqb prefix "" then s else String.append prefix (String dot s).

Lemma append_inj : forall a b c, String.append a b = String.append a c -> b = c.
Proof. intros a; induction a as [|x r IH]; simpl; intros b c H; [exact H|]. inversion H. auto. Qed.

Lemma pre_inj : forall p a b, pre p a = pre p b -> a = b.
Proof.
  intros p a b. unfold pre. destruct (String.eqb p ""); [auto|]. intro H.
  apply append_inj in H. congruence.
Qed.

Lemma add_prefix_nodup : forall V (d : dict V) p, NoDup (keys d) ->
  add_prefix d p = map (fun kv => (pre p (fst kv), snd kv)) d.
Proof.
  intros V d p H. unfold add_prefix, pre. destruct (String.eqb p "").
  - rewrite <- map_id at 1. apply map_ext. now intros [? ?].
  - apply dict_of_list_nodup. rewrite map_map. simpl.
    rewrite <- (map_map fst (fun k => String.append p (String dot k))).
    apply NoDup_map_inj; [|exact H]. intros x y _ _ E. apply append_inj in E. congruence.
Qed.

Definition flat_of {V} (lvs : list (loc * V)) : dict V := map (fun lv => (dotted (fst lv), snd lv)) lvs.

Lemma named_p_node : forall V (d : dict V) c, named_p (Node d c) = true <->
  forallb key_ok (keys d) = true /\ forallb name_ok (keys c) = true /\
  Forall (fun nc => named_p (snd nc) = true) c.
Proof. intros. unfold named_p. simpl. rewrite !andb_true_iff, !forallb_forall, Forall_forall. tauto. Qed.

Lemma leaves_loc_ok : forall V (t : ptree V), named_p t = true ->
  forall l, In l (leaf_locs t) -> loc_ok l = true.
Proof.
  intros V t. unfold leaf_locs. induction t as [d c IH] using tree_ind2. intros Hn l Hl.
  apply named_p_node in Hn. destruct Hn as (Hd & Hk & Hc).
  cbn [leaves] in Hl. rewrite map_app, in_app_iff in Hl. destruct Hl as [Hl|Hl].
  - rewrite map_map in Hl. apply in_map_iff in Hl. destruct Hl as ([k v] & <- & Hi).
    unfold loc_ok; simpl. rewrite forallb_forall in Hd. apply Hd. apply in_map_iff.
    exists (k, v); auto.
  - apply in_map_iff in Hl. destruct Hl as ([l0 v0] & E & Hl). simpl in E; subst l0.
    apply in_flat_map in Hl. destruct Hl as ((n & s) & Hi & Hm). apply in_map_iff in Hm.
    destruct Hm as ([[p k] v] & E & Hl). inversion E; subst.
    rewrite Forall_forall in IH, Hc. rewrite forallb_forall in Hk.
    assert (loc_ok (p, k) = true) as Hlk.
    { apply (IH (n, s) Hi (Hc _ Hi)). apply in_map_iff. exists ((p, k), v0). auto. }
    unfold loc_ok in *; simpl in *. rewrite Hk; [exact Hlk|]. apply in_map_iff. exists (n, s); auto.
Qed.

Lemma NoDup_flat : forall V (t : ptree V), uniq_p t = true -> named_p t = true ->
  NoDup (keys (flat_of (leaves t))).
Proof.
  intros V t Hu Hn. unfold keys, flat_of. rewrite map_map. simpl.
  rewrite <- (map_map fst dotted). apply NoDup_map_inj; [|now apply NoDup_leaf_locs].
  intros x y Hx Hy. apply dotted_inj; eapply leaves_loc_ok; eauto.
Qed.

Lemma dotted_cons : forall n p k, name_ok n = true -> dotted (n :: p, k) = pre n (dotted (p, k)).
Proof.
  intros n p k H. unfold dotted, pre; simpl.
  unfold name_ok in H. apply andb_true_iff in H. destruct H as [_ H]. apply negb_true_iff in H.
  rewrite H. destruct (p ++ [k]) eqn:E; [destruct p; discriminate|]. reflexivity.
Qed.

Definition with_pre {V} (p : string) (l : dict V) : dict V := map (fun kv => (pre p (fst kv), snd kv)) l.

Lemma NoDup_with_pre : forall V p (l : dict V), NoDup (keys l) -> NoDup (keys (with_pre p l)).
Proof.
  intros V p l H. unfold keys, with_pre. rewrite map_map. cbn [fst].
  rewrite <- (map_map fst (pre p)). apply NoDup_map_inj; [|exact H].
  intros x y _ _. apply pre_inj.
Qed.

Definition flat_child {V} (prefix : string) (nc : string * ptree V) : dict V :=
  with_pre prefix (with_pre (fst nc) (flat_of (leaves (snd nc)))).

Lemma flat_of_node : forall V (d : dict V) c prefix, forallb name_ok (keys c) = true ->
  with_pre prefix (flat_of (leaves (Node d c))) = with_pre prefix d ++ flat_map (flat_child prefix) c.
Proof.
  intros V d c prefix Hn. unfold with_pre, flat_of. cbn [leaves]. rewrite !map_app. f_equal.
  - rewrite !map_map. apply map_ext. intros [k v]. reflexivity.
  - induction c as [|[n s] r IH]; cbn [flat_map map]; [reflexivity|].
    cbn [keys map forallb fst] in Hn. apply andb_true_iff in Hn. destruct Hn as [Hn1 Hn2].
    rewrite !map_app. f_equal; [|apply IH; exact Hn2].
    unfold flat_child, with_pre, flat_of. rewrite !map_map. apply map_ext. intros [[p k] v].
    cbn [fst snd]. now rewrite dotted_cons.
Qed.

Lemma make_flat_dict_spec : forall V (t : ptree V) prefix, uniq_p t = true -> named_p t = true ->
  make_flat_dict prefix t = with_pre prefix (flat_of (leaves t)).
Proof.
  intros V t. induction t as [d c IH] using tree_ind2. intros prefix Hu Hn.
  pose proof (NoDup_with_pre _ prefix _ (NoDup_flat _ _ Hu Hn)) as Hnd.
  apply uniq_p_node in Hu. destruct Hu as (Hd & Hkc & Huc).
  apply named_p_node in Hn. destruct Hn as (Hkd & Hnc & Hncc).
  rewrite flat_of_node in * by assumption.
  cbn [make_flat_dict]. rewrite add_prefix_nodup by assumption. fold (with_pre prefix d).
  revert Hnd. generalize (with_pre prefix d) as acc.
  clear Hkd Hd. induction c as [|[n s] r IHr]; intros acc Hnd; cbn [flat_map].
  - now rewrite app_nil_r.
  - inversion IH as [|? ? IHs IHr']; subst. inversion Huc as [|? ? Hus Hur]; subst.
    inversion Hncc as [|? ? Hns Hnr]; subst. inversion Hkc; subst. cbn [snd fst] in *.
    cbn [keys map forallb fst] in Hnc. apply andb_true_iff in Hnc. destruct Hnc as [Hn1 Hn2].
    rewrite IHs by assumption.
    rewrite add_prefix_nodup by (apply NoDup_with_pre, NoDup_flat; assumption).
    fold (with_pre prefix (with_pre n (flat_of (leaves s)))).
    change (with_pre prefix (with_pre n (flat_of (leaves s)))) with (flat_child prefix (n, s)).
    cbn [flat_map] in Hnd. rewrite app_assoc in Hnd.
    rewrite dupdate_app.
    + rewrite IHr; auto. now rewrite <- app_assoc.
    + unfold keys in Hnd. rewrite map_app in Hnd. apply NoDup_app_inv in Hnd. tauto.
Qed.

Lemma make_flat_dict_root : forall V (t : ptree V), uniq_p t = true -> named_p t = true ->
  make_flat_dict "" t = flat_of (leaves t).
Proof.
  intros. rewrite make_flat_dict_spec by assumption. rewrite <- map_id. apply map_ext.
  now intros [? ?].
Qed.

Lemma set_leaves_locs : forall V (lvs : list (loc * V)) t,
  (forall l, In l (map fst lvs) -> loc_ok l = true) ->
  set_leaves (flat_of lvs) t = foldM (fun t lv => set_loc (fst lv) (snd lv) t) lvs t.
Proof.
  intros V lvs; induction lvs as [|[l v] r IH]; intros t H; simpl; [reflexivity|].
  unfold set_leaves in *. simpl. rewrite set_leaf_loc.
  rewrite resolve_dotted by (apply H; simpl; auto).
  destruct (set_loc l v t); [|reflexivity]. apply IH. intros. apply H. simpl; auto.
Qed.

Lemma combine_map_fst : forall A B (l : list A) (m : list B), List.length l = List.length m ->
  map fst (combine l m) = l.
Proof.
  intros A B l; induction l as [|a r IH]; intros [|b m] H; simpl in *; try discriminate; auto.
  f_equal. auto.
Qed.
Lemma combine_map_snd : forall A B (l : list A) (m : list B), List.length l = List.length m ->
  map snd (combine l m) = m.
Proof.
  intros A B l; induction l as [|a r IH]; intros [|b m] H; simpl in *; try discriminate; auto.
  f_equal. auto.
Qed.

(** Main refill lemma: setting every leaf of any tree of the shape of [t]. *)
Lemma refill : forall V (t t0 : ptree V) vals,
  uniq_p t = true -> named_p t = true -> shape t0 = shape t ->
  List.length vals = List.length (leaves t) ->
  exists t', set_leaves (flat_of (combine (leaf_locs t) vals)) t0 = Ok t' /\
    shape t' = shape t /\ leaves t' = combine (leaf_locs t) vals.
Proof.
  intros V t t0 vals Hu Hn Hs Hl.
  assert (List.length (leaf_locs t) = List.length vals) as Hl2
    by (unfold leaf_locs; now rewrite map_length).
  rewrite set_leaves_locs.
  - destruct (set_all V (combine (leaf_locs t) vals) t0) as (t' & H1 & H2 & H3).
    + eapply shape_uniq; [symmetry; exact Hs | exact Hu].
    + rewrite combine_map_fst by assumption. symmetry. now apply shape_leaf_locs.
    + exists t'. repeat split; auto. congruence.
  - intros l Hl3. rewrite combine_map_fst in Hl3 by assumption. eapply leaves_loc_ok; eauto.
Qed.

Lemma combine_split_map : forall A B (l : list (A * B)), combine (map fst l) (map snd l) = l.
Proof. intros A B l; induction l as [|[a b] r IH]; simpl; [reflexivity|]. now rewrite IH. Qed.

Lemma combine_const : forall A B C (l : list (A * B)) (c : C),
  map (fun x => (fst x, c)) l = combine (map fst l) (map (fun _ => c) l).
Proof. intros A B C l c; induction l as [|[a b] r IH]; simpl; [reflexivity|]. now rewrite IH. Qed.

(** The tree definition: the tree of the same shape with the dummy everywhere. *)
Lemma make_tree_def_spec : forall V (dummy : V) t, uniq_p t = true -> named_p t = true ->
  exists td, make_tree_def dummy t = Ok (to_dict td) /\ shape td = shape t /\
    leaf_values td = map (fun _ => dummy) (leaves t).
Proof.
  intros V dummy t Hu Hn. unfold make_tree_def.
  rewrite from_to_dict with (ok := fun d => nodupb (keys d)) by exact Hu. cbn [bind].
  rewrite make_flat_dict_root by assumption.
  assert (map (fun kv : string * V => (fst kv, dummy)) (flat_of (leaves t)) =
          flat_of (combine (leaf_locs t) (map (fun _ => dummy) (leaves t)))) as E.
  { unfold leaf_locs. rewrite <- combine_const. unfold flat_of. rewrite !map_map. reflexivity. }
  rewrite E. clear E. destruct (refill V t t (map (fun _ => dummy) (leaves t)) Hu Hn eq_refl) as (td & H1 & H2 & H3).
  { now rewrite map_length. }
  rewrite H1. cbn [bind]. exists td. split; [reflexivity|]. split; [assumption|].
  unfold leaf_values. rewrite H3. apply combine_map_snd. unfold leaf_locs. now rewrite !map_length.
Qed.

Lemma make_tree_def_shape : forall V (dummy : V) t t2, uniq_p t = true -> named_p t = true ->
  shape t2 = shape t -> make_tree_def dummy t2 = make_tree_def dummy t.
Proof.
  intros V dummy t t2 Hu Hn Hs.
  assert (uniq_p t2 = true) as Hu2 by (eapply shape_uniq; [symmetry; exact Hs | exact Hu]).
  assert (named_p t2 = true) as Hn2 by (rewrite (shape_named _ _ _ _ Hs); exact Hn).
  destruct (make_tree_def_spec V dummy t Hu Hn) as (td & E & Hs1 & Hv1).
  destruct (make_tree_def_spec V dummy t2 Hu2 Hn2) as (td2 & E2 & Hs2 & Hv2).
  rewrite E, E2. do 2 f_equal. apply shape_leaf_values_eq; [congruence|].
  rewrite Hv1, Hv2. pose proof (shape_leaf_locs _ _ _ _ Hs) as Hl. unfold leaf_locs in Hl.
  apply (f_equal (@List.length _)) in Hl. rewrite !map_length in Hl.
  clear -Hl. revert Hl. generalize (leaves t) (leaves t2). intros a.
  induction a as [|x r IH]; intros [|y r2] H; simpl in *; try discriminate; auto.
  f_equal. apply IH. congruence.
Qed.

Lemma flat_roundtrip_general : forall V (dummy : V) t vals, uniq_p t = true -> named_p t = true ->
  List.length vals = List.length (leaves t) ->
  exists td, make_tree_def dummy t = Ok td /\
  exists t', from_flat_dict td (flat_of (combine (leaf_locs t) vals)) = Ok t' /\
    shape t' = shape t /\ leaves t' = combine (leaf_locs t) vals.
Proof.
  intros V dummy t vals Hu Hn Hl.
  destruct (make_tree_def_spec V dummy t Hu Hn) as (td & E & Hs & Hv).
  exists (to_dict td). split; [exact E|]. unfold from_flat_dict.
  rewrite from_to_dict with (ok := fun d => nodupb (keys d)).
  - cbn [bind]. now apply refill.
  - change (uniq_p td = true). eapply shape_uniq; [symmetry; exact Hs | exact Hu].
Qed.

Lemma flat_roundtrip : forall V (dummy : V) t, uniq_p t = true -> named_p t = true ->
  exists flat td, to_flat_dict dummy t = Ok (flat, td) /\ from_flat_dict td flat = Ok t.
Proof.
  intros V dummy t Hu Hn.
  destruct (flat_roundtrip_general V dummy t (leaf_values t) Hu Hn) as (td & E & t' & H1 & H2 & H3).
  { unfold leaf_values. now rewrite map_length. }
  exists (make_flat_dict "" t), td. unfold to_flat_dict. rewrite E. split; [reflexivity|].
  rewrite make_flat_dict_root by assumption.
  unfold leaf_locs, leaf_values in *. rewrite combine_split_map in *. rewrite H1. f_equal.
  apply shape_leaf_values_eq; [assumption|]. unfold leaf_values. now rewrite H3.
Qed.

(** ** C03 *)
Lemma flatten_spec : forall V (dummy : V) t, uniq_p t = true -> named_p t = true ->
  exists td, make_tree_def dummy t = Ok td /\
  tree_flatten dummy t = Ok (leaf_values t, (td, map dotted (leaf_locs t))).
Proof.
  intros V dummy t Hu Hn. destruct (make_tree_def_spec V dummy t Hu Hn) as (td & E & _).
  exists (to_dict td). split; [exact E|]. unfold tree_flatten, to_flat_dict. rewrite E. simpl.
  rewrite make_flat_dict_root by assumption. unfold values, keys, flat_of, leaf_values, leaf_locs.
  now rewrite !map_map.
Qed.

Lemma combine_map_l : forall A B C (f : A -> C) (l : list A) (m : list B),
  combine (map f l) m = map (fun x => (f (fst x), snd x)) (combine l m).
Proof.
  intros A B C f l; induction l as [|a r IH]; intros [|b m]; simpl; try reflexivity.
  now rewrite IH.
Qed.

Lemma pytree_unflatten : forall V (dummy : V) t aux vals ls, uniq_p t = true -> named_p t = true ->
  tree_flatten dummy t = Ok (ls, aux) -> List.length vals = List.length ls ->
  exists t', tree_unflatten aux vals = Ok t' /\ shape t' = shape t /\ leaf_values t' = vals /\
    tree_flatten dummy t' = Ok (vals, aux).
Proof.
  intros V dummy t aux vals ls Hu Hn Hf Hl.
  destruct (flatten_spec V dummy t Hu Hn) as (td & Etd & Ef). rewrite Ef in Hf. inversion Hf; subst.
  unfold leaf_values in Hl. rewrite map_length in Hl.
  destruct (flat_roundtrip_general V dummy t vals Hu Hn Hl) as (td2 & E2 & t' & H1 & H2 & H3).
  assert (td2 = td) by congruence. subst td2.
  unfold tree_unflatten. cbn [fst snd].
  assert (dict_of_list (combine (map dotted (leaf_locs t)) vals) =
          flat_of (combine (leaf_locs t) vals)) as E.
  { rewrite combine_map_l. rewrite dict_of_list_nodup; [reflexivity|]. rewrite map_map. cbn [fst].
    rewrite <- (map_map fst dotted). rewrite combine_map_fst
      by (unfold leaf_locs; now rewrite map_length).
    pose proof (NoDup_flat _ _ Hu Hn) as Hd. unfold keys, flat_of in Hd. rewrite map_map in Hd.
    cbn [fst] in Hd. rewrite <- (map_map fst dotted) in Hd. exact Hd. }
  rewrite E, H1. exists t'. split; [reflexivity|]. split; [assumption|].
  assert (leaf_values t' = vals) as Hv.
  { unfold leaf_values. rewrite H3. apply combine_map_snd. unfold leaf_locs. now rewrite map_length. }
  split; [exact Hv|].
  assert (uniq_p t' = true) as Hu2 by (eapply shape_uniq; [symmetry; exact H2 | exact Hu]).
  assert (named_p t' = true) as Hn2 by (rewrite (shape_named _ _ _ _ H2); exact Hn).
  destruct (flatten_spec V dummy t' Hu2 Hn2) as (td3 & Etd3 & Ef3). rewrite Ef3.
  rewrite (make_tree_def_shape V dummy t t' Hu Hn H2) in Etd3.
  rewrite (shape_leaf_locs _ _ _ _ H2). congruence.
Qed.

Lemma pytree_roundtrip : forall V (dummy : V) t, uniq_p t = true -> named_p t = true ->
  exists ls aux, tree_flatten dummy t = Ok (ls, aux) /\ tree_unflatten aux ls = Ok t.
Proof.
  intros V dummy t Hu Hn. destruct (flatten_spec V dummy t Hu Hn) as (td & Etd & Ef).
  eexists; eexists; split; [exact Ef|].
  destruct (pytree_unflatten V dummy t _ (leaf_values t) _ Hu Hn Ef eq_refl) as (t' & H1 & H2 & H3 & _).
  rewrite H1. f_equal. now apply shape_leaf_values_eq.
Qed.
