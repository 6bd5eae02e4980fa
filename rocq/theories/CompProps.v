(** C31 and C32: recursive parameters, registry and building from a configuration. *)
From Verif Require Import Base TreeModel TreeSpec TreeProofs TreeProps CompModel CompSpec CompProofs.

(** ** C31 *)
(** setting succeeds exactly when the tree has a node at every place of the model; the only error is KeyError; the model keeps its
    structure; on success every submodel has the parameters found at its place *)
Theorem C31_set : forall V (m m' : model V) p e, wf_model m -> set_rec m p = (m', e) ->
  (e = None <-> covers m p) /\ (e = None \/ e = Some KeyError) /\ same_structure m m' /\
  (e = None -> forall names s', mwalk names m' = Ok s' -> exists q, walk names p = Ok q /\ mparams s' = tdata q).
Proof.
  intros V m m' p e W E. pose proof (set_rec_ok m p W) as [H1 H2]. pose proof (set_rec_err m p) as H3. pose proof (set_rec_structure m p) as H4. rewrite E in *. simpl in *. auto.
Qed.
Print Assumptions C31_set.
(** what is read back: a node at exactly the places of the model, with the parameters that were set *)
Theorem C31_set_get : forall V (m m' : model V) p, wf_model m -> set_rec m p = (m', None) -> forall names,
  (forall s, mwalk names m = Ok s -> exists q q', walk names p = Ok q /\ walk names (get_rec m') = Ok q' /\ tdata q' = tdata q) /\
  (forall e, mwalk names m = Raise e -> walk names (get_rec m') = Raise KeyError).
Proof.
  intros V m m' p W E names. destruct (C31_set V m m' p None W E) as (_ & _ & S & H). specialize (H eq_refl names). pose proof (ss_walk names m m' S) as SW. pose proof (ss_wf m m' S W) as W'.
  pose proof (walk_get_rec names m' W') as G. split.
  - intros s Es. rewrite Es in SW. destruct (mwalk names m') as [s'|] eqn:E'; [|contradiction]. destruct (H s' eq_refl) as (q & Eq & Ep). exists q, (get_rec s'). rewrite G, tdata_get_rec. auto.
  - intros e Es. rewrite Es in SW. destruct (mwalk names m') as [s'|e'] eqn:E'; [destruct e; contradiction|]. rewrite G. simpl. destruct e, e'; try contradiction. reflexivity.
Qed.
Print Assumptions C31_set_get.
(** setting what was read changes nothing *)
Theorem C31_get_set : forall V (m : model V), wf_model m -> set_rec m (get_rec m) = (m, None).
Proof. intros. now apply set_get_id. Qed.
Print Assumptions C31_get_set.
(** children of the parameter tree that are not submodels are ignored: only the data at the places of the model matters *)
Theorem C31_extra_ignored : forall V (m : model V) p p', wf_model m ->
  (forall names s, mwalk names m = Ok s -> fmap tdata (walk names p) = fmap tdata (walk names p')) -> set_rec m p = set_rec m p'.
Proof. intros. now apply set_rec_ext. Qed.
Print Assumptions C31_extra_ignored.
(** after a failure every submodel has its old parameters or those of the tree *)
Theorem C31_failed_mixed : forall V (m m' : model V) p e, set_rec m p = (m', e) -> forall names s', mwalk names m' = Ok s' ->
  exists s, mwalk names m = Ok s /\ (mparams s' = mparams s \/ exists q, walk names p = Ok q /\ mparams s' = tdata q).
Proof. intros V m m' p e E names s' H. pose proof (set_rec_mixed m p names s') as L. rewrite E in L. exact (L H). Qed.
Print Assumptions C31_failed_mixed.
(** preparing the constraints (make_model_algebra_cons) restores the parameters whatever tracing does to them; with an unknown backend it
    raises ValueError and changes nothing *)
Theorem C31_algebra_restores : forall V (m : model V) effect backend, wf_model m -> uniq_p (get_rec m) = true -> same_structure m (effect m) ->
  (In backend ["casadi"; "jax"; "custom"] -> make_model_algebra_cons backend effect m = (m, None)) /\
  (~ In backend ["casadi"; "jax"; "custom"] -> make_model_algebra_cons backend effect m = (m, Some ValueError)).
Proof.
  intros V m effect backend W U S. unfold make_model_algebra_cons. rewrite (C01_dict_roundtrip_param V (get_rec m) U).
  assert (existsb (String.eqb backend) ["casadi"; "jax"; "custom"] = true <-> In backend ["casadi"; "jax"; "custom"]) as E.
  { rewrite existsb_exists. split; [intros (x & H & Ex); apply String.eqb_eq in Ex; now subst|intro H; exists backend; split; [assumption|apply String.eqb_refl]]. }
  destruct (existsb (String.eqb backend) ["casadi"; "jax"; "custom"]).
  - split; [intros _; now apply set_restore|]. intro H. exfalso. apply H. now apply E.
  - split; [|reflexivity]. intro H. apply E in H. discriminate.
Qed.
Print Assumptions C31_algebra_restores.

(** ** C32: the registry *)
Lemma dget_ddel : forall V n k (d : dict V), NoDup (keys d) -> dget n (ddel k d) = if String.eqb n k then None else dget n d.
Proof.
  intros V n k d ND; induction d as [|[k' v] d IH]; simpl; [destruct (String.eqb n k); reflexivity|]. simpl in ND. apply NoDup_cons_iff in ND. destruct ND as [Hn ND].
  destruct (String.eqb_spec k k') as [->|Hk].
  - destruct (String.eqb_spec n k') as [->|]; [|reflexivity]. now apply dget_none.
  - simpl. rewrite (IH ND). destruct (String.eqb_spec n k') as [->|]; [|reflexivity]. destruct (String.eqb_spec k' k); [congruence|reflexivity].
Qed.
Lemma NoDup_ddel : forall V k (d : dict V), NoDup (keys d) -> NoDup (keys (ddel k d)).
Proof.
  intros V k d ND; induction d as [|[k' v] d IH]; [assumption|]. simpl in *. apply NoDup_cons_iff in ND. destruct ND as [Hn ND]. destruct (String.eqb k k'); [assumption|]. simpl. constructor; [|auto].
  intro H. apply Hn. clear - H. induction d as [|[k2 v2] d IH]; [destruct H|]. simpl in *. destruct (String.eqb k k2); [now right|]. destruct H as [<-|H]; [now left|right; auto].
Qed.
Section Reg.
Context {V : Type}.
Definition apply_op (reg : registry V) (op : rop V) : registry V := match rstep reg op with Ok r => r | Raise _ => reg end.
Definition op_class (op : rop V) : mclass V := match op with RAdd c => c | RRemove c => c end.
Lemma rrun_snoc : forall h op, rrun (h ++ [op]) = apply_op (@rrun V h) op.
Proof. intros. unfold rrun. now rewrite fold_left_app. Qed.
Lemma rrun_nodup : forall h, NoDup (keys (@rrun V h)).
Proof.
  intro h; induction h as [|op h IH] using rev_ind; [constructor|]. rewrite rrun_snoc. unfold apply_op. destruct op as [c|c]; simpl; [unfold add_to_registry|unfold remove_from_registry]; destruct (dmem (cname c) (rrun h)); auto using NoDup_keys_dset, NoDup_ddel.
Qed.
Lemma apply_get : forall h op n, dget n (apply_op (@rrun V h) op) =
  if String.eqb (cname (op_class op)) n then match op with RAdd c => match dget n (rrun h) with Some c' => Some c' | None => Some c end | RRemove _ => None end else dget n (rrun h).
Proof.
  intros h op n. unfold apply_op. destruct op as [c|c]; simpl; [unfold add_to_registry|unfold remove_from_registry]; unfold dmem; destruct (dget (cname c) (rrun h)) as [c'|] eqn:E.
  - destruct (String.eqb_spec (cname c) n) as [<-|]; [|reflexivity]. now rewrite E.
  - destruct (String.eqb_spec (cname c) n) as [<-|Hne]; [rewrite E; apply dget_dset_same|]. now apply dget_dset_other.
  - rewrite dget_ddel by apply rrun_nodup. rewrite String.eqb_sym. destruct (String.eqb (cname c) n); reflexivity.
  - destruct (String.eqb_spec (cname c) n) as [<-|]; [assumption|reflexivity].
Qed.
Lemma last_op_snoc : forall n h op, last_op n (h ++ [op]) = if String.eqb (cname (op_class op)) n then Some (match op with @RAdd _ _ => true | _ => false end) else @last_op V n h.
Proof.
  intros n h op; induction h as [|a h IH].
  - simpl. destruct op as [c|c]; simpl; destruct (String.eqb (cname c) n); reflexivity.
  - simpl. rewrite IH. destruct (String.eqb (cname (op_class op)) n); reflexivity.
Qed.
End Reg.

(** a type is registered after a history exactly when the most recent call naming it was an add; what it stands for is the class of the first
    add after the last removal; the calls raise ValueError / KeyError exactly when the name is / is not registered, and leave every other name alone *)
Theorem C32_registry : forall V (h : list (rop V)) n,
  ((exists c, get_model_class (rrun h) n = Ok c) <-> last_op n h = Some true) /\
  (forall e, get_model_class (rrun h) n = Raise e -> e = KeyError) /\
  (forall c, get_model_class (rrun h) n = Ok c -> cname c = n /\ exists h1 h2, h = h1 ++ RAdd c :: h2 /\ last_op n h1 <> Some true /\ (forall d, In (RRemove d) h2 -> cname d <> n)) /\
  (forall c, (add_to_registry (rrun h) c = Raise ValueError <-> last_op (cname c) h = Some true) /\ (add_to_registry (rrun h) c = Raise ValueError \/ exists r, add_to_registry (rrun h) c = Ok r)) /\
  (forall c, (remove_from_registry (rrun h) c = Raise KeyError <-> last_op (cname c) h <> Some true) /\ (remove_from_registry (rrun h) c = Raise KeyError \/ exists r, remove_from_registry (rrun h) c = Ok r)).
Proof.
  intros V h. assert (forall n, (exists c, dget n (rrun h) = Some c) <-> last_op n h = Some true) as R.
  { intro n. induction h as [|op h IH] using rev_ind; [split; [intros [c H]; discriminate|discriminate]|]. rewrite rrun_snoc, last_op_snoc, apply_get. destruct (String.eqb (cname (op_class op)) n); [|exact IH].
    destruct op as [c|c]; simpl; split; try discriminate; try reflexivity; eauto.
    - intros _. destruct (dget n (rrun h)); eauto.
    - intros [c' H]; discriminate. }
  assert (forall n, dmem n (rrun h) = true <-> last_op n h = Some true) as DM.
  { intro n. rewrite <- R. unfold dmem. destruct (dget n (rrun h)); split; try discriminate; eauto. intros [c H]; discriminate. }
  intro n. unfold get_model_class, lookup_err. split; [|split; [|split; [|split]]].
  - rewrite <- R. destruct (dget n (rrun h)) as [c|]; split; intros [c' E]; try discriminate; eauto.
  - intros e. destruct (dget n (rrun h)); [discriminate|]. intro E. now injection E as <-.
  - clear R DM. induction h as [|op h IH] using rev_ind; [discriminate|]. intros c. rewrite rrun_snoc, apply_get. destruct (String.eqb_spec (cname (op_class op)) n) as [En|Hne].
    + destruct op as [d|d]; simpl in En; [|discriminate]. destruct (dget n (rrun h)) as [c'|] eqn:Eg.
      * intro E. injection E as <-. destruct (IH c' eq_refl) as (Ec & h1 & h2 & -> & L & Hr). split; [assumption|]. exists h1, (h2 ++ [RAdd d]). split; [now rewrite <- app_assoc|]. split; [assumption|].
        intros d' Hd. apply in_app_or in Hd. destruct Hd as [Hd|[Hd|[]]]; [auto|discriminate].
      * intro E. injection E as <-. split; [assumption|]. exists h, []. split; [reflexivity|]. split; [|intros ? []].
        intro L. assert (exists c, dget n (rrun h) = Some c) as [c Hc]; [|congruence]. clear IH. revert L. clear. revert n. induction h as [|op h IH] using rev_ind; [discriminate|]. intros n. rewrite rrun_snoc, last_op_snoc, apply_get.
        destruct (String.eqb (cname (op_class op)) n); [|apply IH]. destruct op; [|discriminate]. intros _. destruct (dget n (rrun h)); eauto.
    + destruct (dget n (rrun h)) as [c'|] eqn:Eg; [|discriminate]. intro E. injection E as <-. destruct (IH c' eq_refl) as (Ec & h1 & h2 & -> & L & Hr). split; [assumption|]. exists h1, (h2 ++ [op]). split; [now rewrite <- app_assoc|]. split; [assumption|].
      intros d' Hd. apply in_app_or in Hd. destruct Hd as [Hd|[->|[]]]; [auto|exact Hne].
  - intro c. unfold add_to_registry. pose proof (DM (cname c)) as D. destruct (dmem (cname c) (rrun h)); split; eauto.
    + split; [intros _; now apply D|reflexivity].
    + split; [discriminate|]. intro H. apply D in H. discriminate.
  - intro c. unfold remove_from_registry. pose proof (DM (cname c)) as D. destruct (dmem (cname c) (rrun h)); split; eauto.
    + split; [discriminate|]. intro H. exfalso. apply H. now apply D.
    + split; [|reflexivity]. intros _ H. apply D in H. discriminate.
Qed.
Print Assumptions C32_registry.

(** every registry a program can produce is consistent: types are stored under their own name *)
Lemma rrun_ok : forall V (h : list (rop V)), Forall (fun op => class_ok (op_class op)) h -> reg_ok (rrun h).
Proof.
  intros V h H n c E. destruct (C32_registry V h n) as (_ & _ & R & _). unfold get_model_class, lookup_err in R. rewrite E in R. destruct (R c eq_refl) as (Ec & h1 & h2 & -> & _). split; [assumption|].
  apply Forall_app in H. destruct H as [_ H]. inversion H; subst. assumption.
Qed.

(** ** C32: building *)
Section Build.
Context {V : Type}.
Variable reg : registry V.
Hypothesis RO : reg_ok reg.

(** a model conforms to a configuration: the configured type at every declared place *)
Inductive conforms : tree string -> model V -> Prop :=
| CF tn ch c p s : dget tn reg = Some c -> keys s = keys (csubs c) ->
    (forall n sm, dget n s = Some sm -> exists t, dget n ch = Some t /\ conforms t sm) -> conforms (Node tn ch) (M c p s).

Lemma conforms_ss : forall cfg m m', conforms cfg m -> same_structure m m' -> conforms cfg m'.
Proof using.
  intros cfg m; revert cfg. induction m as [c p s IH] using model_ind2. intros cfg m' H S. inversion H as [tn ch ? ? ? Hc Hk Hs]; subst. inversion S as [? ? p' ? s' F]; subst.
  constructor; [assumption|now rewrite <- (ss_keys _ _ F)|]. intros n sm' E. pose proof (ss_dget _ _ F n) as D. rewrite E in D. destruct (dget n s) as [sm|] eqn:Es; [|contradiction].
  destruct (Hs n sm Es) as (t & Et & Hc'). exists t. split; [assumption|]. apply (IH n sm (dget_in _ _ _ _ Es) t sm' Hc' D).
Qed.

Lemma mapM_subs : forall (built : dict (result (model V))) (subs : dict string) ms,
  mapM (fun nt => match dget (fst nt) built with None => Raise KeyError | Some r => fmap (pair (fst nt)) r end) subs = Ok ms ->
  keys ms = keys subs /\ forall n sm, In (n, sm) ms -> dget n built = Some (Ok sm).
Proof using.
  intros built subs; induction subs as [|[n t] subs IH]; intros ms E; simpl in E; [injection E as <-; split; [reflexivity|intros ? ? []]|].
  destruct (dget n built) as [[sm|e]|] eqn:Eb; try discriminate. simpl in E. destruct (mapM _ subs) as [r|] eqn:Er; [|discriminate]. injection E as <-. destruct (IH r eq_refl) as [I1 I2].
  split; [unfold keys in *; simpl; now rewrite I1|]. intros n' sm' [X|Hin]; [injection X as <- <-; assumption|auto].
Qed.
Lemma mapM_subs_err : forall (built : dict (result (model V))) (subs : dict string) e, (forall n e, dget n built = Some (Raise e) -> e = KeyError) ->
  mapM (fun nt => match dget (fst nt) built with None => Raise KeyError | Some r => fmap (pair (fst nt)) r end) subs = Raise e ->
  e = KeyError /\ exists n, In n (keys subs) /\ forall sm, dget n built <> Some (Ok sm).
Proof using.
  intros built subs; induction subs as [|[n t] subs IH]; intros e HE E; simpl in E; [discriminate|].
  destruct (dget n built) as [[sm|e0]|] eqn:Eb; simpl in E.
  - destruct (mapM _ subs) as [r|e1] eqn:Er; [discriminate|]. injection E as <-. destruct (IH e1 HE eq_refl) as (He & k & Hk & Hn). split; [assumption|]. exists k. split; [now right|assumption].
  - injection E as <-. split; [eapply HE; eauto|]. exists n. split; [now left|]. rewrite Eb. discriminate.
  - injection E as <-. split; [reflexivity|]. exists n. split; [now left|]. rewrite Eb. discriminate.
Qed.

Lemma make_model_spec : forall cfg,
  (forall m, make_model reg cfg = Ok m -> conforms cfg m /\ wf_model m /\ get_rec m = default_params m) /\
  (forall e, make_model reg cfg = Raise e -> e = KeyError /\ ~ valid_cfg reg cfg) /\
  ((exists m, make_model reg cfg = Ok m) -> valid_cfg reg cfg).
Proof using RO.
  intro cfg; induction cfg as [tn ch IH] using tree_ind2. cbn [make_model]. unfold get_model_class, lookup_err. destruct (dget tn reg) as [c|] eqn:Ec; cbn [bind].
  2:{ split; [discriminate|]. split; [|intros [m H]; discriminate]. intros e E. injection E as <-. split; [reflexivity|]. intro H. inversion H; subst. congruence. }
  destruct (RO tn c Ec) as [En Hok]. rewrite En, String.eqb_refl. cbn [negb].
  set (built := map (fun nc => (fst nc, make_model reg (snd nc))) ch). assert (forall n, dget n built = option_map (make_model reg) (dget n ch)) as Eb by (intro n; apply dget_mapv).
  assert (forall n t, dget n ch = Some t -> In (n, t) ch) as Hin by (intros n t; apply dget_in).
  rewrite Forall_forall in IH.
  destruct (mapM _ (csubs c)) as [subs|e] eqn:EM; cbn [bind].
  - destruct (mapM_subs _ _ _ EM) as [Hk Hs]. 
    assert (forall n sm, In (n, sm) subs -> exists t, dget n ch = Some t /\ make_model reg t = Ok sm) as Hs'.
    { intros n sm H. specialize (Hs n sm H). rewrite Eb in Hs. destruct (dget n ch) as [t|]; [|discriminate]. simpl in Hs. exists t. split; [reflexivity|congruence]. }
    assert (wf_model (M c [] subs)) as W.
    { constructor; [rewrite Hk; exact Hok|]. intros n sm H. destruct (Hs' n sm H) as (t & Et & Em). apply (IH (n, t) (Hin n t Et)); assumption. }
    destruct (init_default (M c [] subs) W) as (m' & Ei & S & G). rewrite Ei. split; [|split; [discriminate|]].
    + intros m E. injection E as <-. split; [|split; [eapply ss_wf; eauto|rewrite G; now apply default_ss]]. apply (conforms_ss _ (M c [] subs)); [|assumption].
      constructor; [assumption|assumption|]. intros n sm H. destruct (Hs' n sm (dget_in _ _ _ _ H)) as (t & Et & Em). exists t. split; [assumption|]. apply (IH (n, t) (Hin n t Et)); assumption.
    + intros _. apply (VC reg tn ch c); [assumption|]. intros n Hn. rewrite <- Hk in Hn. apply dget_some_iff in Hn. destruct Hn as [sm Hsm]. destruct (Hs' n sm (dget_in _ _ _ _ Hsm)) as (t & Et & Em). exists t. split; [assumption|].
      apply (IH (n, t) (Hin n t Et)). eauto.
  - destruct (mapM_subs_err built (csubs c) e) as (-> & n & Hn & Hno); [|assumption|].
    { intros n e0 E. rewrite Eb in E. destruct (dget n ch) as [t|] eqn:Et; [|discriminate]. simpl in E. injection E as E. apply (IH (n, t) (Hin n t Et) ); assumption. }
    split; [discriminate|]. split; [|intros [m H]; discriminate]. intros e E. injection E as <-. split; [reflexivity|]. intro HV. inversion HV as [? ? c' Hc' Hall]; subst. rewrite Ec in Hc'. injection Hc' as <-.
    destruct (Hall n Hn) as (s & Es & Hs). specialize (Hno). rewrite Eb, Es in Hno. simpl in Hno. destruct (make_model reg s) as [sm|e] eqn:Em; [now apply (Hno sm)|].
    destruct (IH (n, s) (Hin n s Es)) as (_ & I2 & _). simpl in I2. destruct (I2 e Em) as [_ X]. contradiction.
Qed.

Lemma conforms_walk : forall names cfg m, conforms cfg m ->
  (forall s, mwalk names m = Ok s -> declared reg cfg names /\ exists t, walk names cfg = Ok t /\ conforms t s) /\ (forall e, mwalk names m = Raise e -> e = KeyError /\ ~ declared reg cfg names).
Proof using RO.
  intros names; induction names as [|n names IH]; intros cfg m H.
  - simpl. split; [|discriminate]. intros s E. injection E as <-. eauto.
  - inversion H as [tn ch c p s Hc Hk Hs]; subst. cbn [mwalk msubs]. destruct (dget n s) as [sm|] eqn:Es.
    + destruct (Hs n sm Es) as (t & Et & Ct). destruct (IH t sm Ct) as [I1 I2]. assert (In n (keys (csubs c))) as Hn by (rewrite <- Hk; apply dget_some_iff; eauto). split.
      * intros s0 E. destruct (I1 s0 E) as (D & t0 & Ew & C0). cbn [declared tdata tchildren walk]. split; [split; [eauto|]; exists t; auto|]. exists t0. unfold get_child, lookup_err, tchildren. rewrite Et. auto.
      * intros e E. destruct (I2 e E) as [-> ND]. split; [reflexivity|]. intros (_ & s1 & E1 & D1). simpl in E1. rewrite Et in E1. injection E1 as <-. contradiction.
    + split; [discriminate|]. intros e E. injection E as <-. split; [reflexivity|]. intros ((c' & Hc' & Hn) & _). simpl in Hc'. rewrite Hc in Hc'. injection Hc' as <-. rewrite <- Hk in Hn. apply dget_some_iff in Hn. destruct Hn as [v Hv]. congruence.
Qed.
End Build.

(** building succeeds exactly on valid configurations (a registered type at every declared place), any other fails with KeyError *)
Theorem C32_build : forall V (h : list (rop V)) cfg, Forall (fun op => class_ok (op_class op)) h ->
  ((exists m, make_model (rrun h) cfg = Ok m) <-> valid_cfg (rrun h) cfg) /\ (forall e, make_model (rrun h) cfg = Raise e -> e = KeyError).
Proof.
  intros V h cfg H. destruct (make_model_spec (rrun h) (rrun_ok V h H) cfg) as (A & B & C). split; [split; [assumption|]|intros e E; now apply B].
  intro HV. destruct (make_model (rrun h) cfg) as [m|e] eqn:E; [eauto|]. destruct (B e eq_refl). contradiction.
Qed.
Print Assumptions C32_build.
(** a submodel is found at a path exactly when the configured types declare it, and it has the configured type; otherwise KeyError; every part of
    a new model has its type's default parameters *)
Theorem C32_submodels : forall V (h : list (rop V)) cfg m path, Forall (fun op => class_ok (op_class op)) h -> make_model (rrun h) cfg = Ok m ->
  let names := split dot path in
  wf_model m /\ mtype m = tdata cfg /\
  ((exists s, get_submodel dot path m = Ok s) <-> declared (rrun h) cfg names) /\
  (forall e, get_submodel dot path m = Raise e -> e = KeyError) /\
  (forall s, get_submodel dot path m = Ok s -> exists t, walk names cfg = Ok t /\ mtype s = tdata t /\ dget (mtype s) (rrun h) = Some (mcls s) /\ mparams s = cdefaults (mcls s)).
Proof.
  intros V h cfg m path H E names. pose proof (rrun_ok V h H) as RO. destruct (make_model_spec (rrun h) RO cfg) as (A & _ & _). destruct (A m E) as (Cf & W & Gd). split; [assumption|].
  assert (forall t s, conforms (rrun h) t s -> mtype s = tdata t /\ dget (mtype s) (rrun h) = Some (mcls s)) as Ty.
  { intros t s C. inversion C as [tn ch c p ss Hc Hk Hs]; subst. unfold mtype. simpl. destruct (RO tn c Hc) as [-> _]. auto. }
  split; [now apply Ty|]. destruct (conforms_walk (rrun h) RO names cfg m Cf) as [I1 I2]. unfold get_submodel. fold names. split; [|split].
  - split; [intros [s Es]; now apply (I1 s)|]. intro D. destruct (mwalk names m) as [s|e] eqn:Ew; [eauto|]. destruct (I2 e eq_refl). contradiction.
  - intros e Ee. now apply (I2 e).
  - intros s Es. destruct (I1 s Es) as (D & t & Ew & Ct). exists t. destruct (Ty t s Ct) as [T1 T2]. split; [assumption|]. split; [assumption|]. split; [assumption|].
    pose proof (walk_get_rec names m W) as G1. pose proof (walk_default names m W) as G2. rewrite Gd, G2, Es in G1. simpl in G1. injection G1 as G1. rewrite <- tdata_get_rec, <- G1. apply tdata_default.
Qed.
Print Assumptions C32_submodels.

(** the default configuration, when it can be computed, is the one the classes describe, whatever the recursion limit; and a model can be built from it *)
Lemma default_config_spec : forall V (reg : registry V), reg_ok reg -> forall fuel c t, class_ok c -> default_config fuel reg c = Ok t -> default_cfg reg c t.
Proof.
  intros V reg RO fuel; induction fuel as [|f IH]; intros c t HC E; [discriminate|]. cbn [default_config] in E.
  assert (forall subs acc t0, foldM (fun t nt => bind (get_model_class reg (snd nt)) (fun c' => bind (default_config f reg c') (fun s => Ok (add_child (fst nt) s t)))) subs (Node (cname c) acc) = Ok t0 ->
     NoDup (keys acc ++ keys subs) ->
     exists ch, t0 = Node (cname c) (acc ++ ch) /\ Forall2 (fun nt nc => fst nt = fst nc /\ exists c', dget (snd nt) reg = Some c' /\ default_cfg reg c' (snd nc)) subs ch) as G.
  { intros subs; induction subs as [|[n ty] subs IHs]; intros acc t0 E0 ND; simpl in E0.
    - injection E0 as <-. exists []. rewrite app_nil_r. split; [reflexivity|constructor].
    - unfold get_model_class, lookup_err in E0. destruct (dget ty reg) as [c'|] eqn:Ec; [|discriminate]. cbn [bind] in E0. destruct (default_config f reg c') as [s|] eqn:Ed; [|discriminate]. cbn [bind] in E0.
      unfold add_child in E0. rewrite dset_notin in E0.
      2:{ intro Hn. apply NoDup_app_inv in ND. destruct ND as (_ & _ & D). apply (D n); [assumption|now left]. }
      destruct (IHs _ _ E0) as (ch & -> & F). { unfold keys. rewrite map_app. simpl. rewrite <- app_assoc. exact ND. }
      exists ((n, s) :: ch). split; [now rewrite <- app_assoc|]. constructor; [|assumption]. simpl. split; [reflexivity|]. exists c'. split; [assumption|]. apply IH; [now apply (RO ty)|assumption]. }
  destruct (G _ _ _ E HC) as (ch & -> & F). constructor. exact F.
Qed.
Lemma Forall2_dget : forall V (reg : registry V) subs ch n, Forall2 (fun nt nc => fst nt = fst nc /\ exists c', dget (snd nt) reg = Some c' /\ default_cfg reg c' (snd nc)) subs ch ->
  In n (keys subs) -> exists c' s, dget n ch = Some s /\ (exists ty, dget ty reg = Some c') /\ default_cfg reg c' s.
Proof.
  intros V reg subs ch n F; induction F as [|[k ty] [k' s] subs ch [E (c' & Ec & D)] F IH]; intro H; [destruct H|]. simpl in E, Ec, D. subst k'. simpl. destruct (String.eqb_spec n k) as [->|Hne].
  - exists c', s. split; [reflexivity|]. split; [eauto|assumption].
  - apply IH. destruct H as [H|H]; [simpl in H; congruence|assumption].
Qed.
Theorem C32_default : forall V (h : list (rop V)) fuel tn t, Forall (fun op => class_ok (op_class op)) h -> make_config fuel (rrun h) tn = Ok t ->
  (exists c, dget tn (rrun h) = Some c /\ default_cfg (rrun h) c t) /\ (forall fuel', make_config (fuel + fuel') (rrun h) tn = Ok t) /\ exists m, make_model (rrun h) t = Ok m /\ mtype m = tn.
Proof.
  intros V h fuel tn t H E. pose proof (rrun_ok V h H) as RO. unfold make_config, get_model_class, lookup_err in *. destruct (dget tn (rrun h)) as [c|] eqn:Ec; [|discriminate]. cbn [bind] in *.
  destruct (RO tn c Ec) as [En Hok]. pose proof (default_config_spec V (rrun h) RO fuel c t Hok E) as D. split; [eauto|]. split.
  - intro fuel'. revert c t E Hok D Ec En. clear - RO. revert tn. induction fuel as [|f IH]; intros tn c t E Hok D Ec En; [discriminate|]. simpl in E |- *. revert E. generalize (Node (cname c) (@nil (string * tree string))) as acc. generalize (csubs c) as subs. clear D.
    intros subs; induction subs as [|[n ty] subs IHs]; intros acc E; simpl in E |- *; [assumption|]. unfold get_model_class, lookup_err in *. destruct (dget ty (rrun h)) as [c'|] eqn:Ec'; [|discriminate]. cbn [bind] in E |- *.
    destruct (default_config f (rrun h) c') as [s|] eqn:Ed; [|discriminate]. rewrite (IH ty c' s Ed (proj2 (RO ty c' Ec')) (default_config_spec V (rrun h) RO f c' s (proj2 (RO ty c' Ec')) Ed) Ec' (proj1 (RO ty c' Ec'))). cbn [bind] in E |- *. now apply IHs.
  - assert (forall t c, default_cfg (rrun h) c t -> (exists ty, dget ty (rrun h) = Some c) -> valid_cfg (rrun h) t) as G.
    { clear - RO. intro t; induction t as [ty ch IH] using tree_ind2. intros c D [tn Ec]. inversion D as [? ? F]; subst. destruct (RO tn c Ec) as [<- Hok]. apply (VC _ _ _ c); [assumption|]. intros n Hn.
      destruct (Forall2_dget V (rrun h) _ _ n F Hn) as (c' & s & Es & Hty & Ds). exists s. split; [assumption|]. rewrite Forall_forall in IH. apply (IH (n, s) (dget_in _ _ _ _ Es) c'); assumption. }
    destruct (proj2 (proj1 (C32_build V h t H)) (G t c D (ex_intro _ tn Ec))) as [m Em]. exists m. split; [assumption|].
    destruct (C32_submodels V h t m "" H Em) as (_ & -> & _). inversion D; subst. reflexivity.
Qed.
Print Assumptions C32_default.

(** the constructor of a class, as called by a user with a configuration and optionally parameters *)
Theorem C32_constructor : forall V (h : list (rop V)) fuel c t, Forall (fun op => class_ok (op_class op)) h -> class_ok c ->
  (tdata t <> cname c -> forall params, construct fuel (rrun h) c (Some t) params = Raise TypeError) /\
  (tdata t = cname c -> (forall n, In n (keys (csubs c)) -> exists s, dget n (tchildren t) = Some s /\ valid_cfg (rrun h) s) ->
    exists m0, construct fuel (rrun h) c (Some t) None = Ok m0 /\ wf_model m0 /\ mcls m0 = c /\ get_rec m0 = default_params m0 /\
      forall p, (covers m0 p -> exists m, construct fuel (rrun h) c (Some t) (Some p) = Ok m /\ same_structure m0 m /\ forall names s, mwalk names m = Ok s -> exists q, walk names p = Ok q /\ mparams s = tdata q) /\
                (~ covers m0 p -> construct fuel (rrun h) c (Some t) (Some p) = Raise KeyError)).
Proof.
  intros V h fuel c t H HC. pose proof (rrun_ok V h H) as RO. unfold construct. cbn [bind]. split.
  - intros Hne params. apply String.eqb_neq in Hne. now rewrite Hne.
  - intros E Hall. rewrite E, String.eqb_refl. cbn [negb].
    assert (exists subs, mapM (fun nt => match dget (fst nt) (tchildren t) with None => Raise KeyError | Some s => fmap (pair (fst nt)) (make_model (rrun h) s) end) (csubs c) = Ok subs /\ keys subs = keys (csubs c) /\ forall n sm, In (n, sm) subs -> wf_model sm) as (subs & -> & Hk & Hw).
    { clear HC E. destruct c as [cn cs cd]. simpl in Hall |- *. induction cs as [|[n ty] cs IH]; [exists []; repeat split; intros ? ? []|]. simpl.
      destruct (Hall n (or_introl eq_refl)) as (s & -> & HV). destruct (proj2 (proj1 (C32_build V h s H)) HV) as [m Em]. rewrite Em. simpl. destruct IH as (r & -> & Hk & Hw); [intros; apply Hall; now right|].
      exists ((n, m) :: r). split; [reflexivity|]. split; [unfold keys in *; simpl; now rewrite Hk|]. intros n' sm [X|Hin]; [|now apply (Hw n')]. injection X as <- <-. now apply (make_model_spec (rrun h) RO s). }
    cbn [bind]. assert (wf_model (M c [] subs)) as W by (constructor; [rewrite Hk; exact HC|assumption]).
    destruct (init_default (M c [] subs) W) as (m0 & -> & S & G). exists m0. split; [reflexivity|]. split; [eapply ss_wf; eauto|]. split; [now inversion S|]. split; [rewrite G; now apply default_ss|].
    intro p. assert (covers m0 p <-> covers (M c [] subs) p) as EC.
    { unfold covers. split; intros Hc names s Es; pose proof (ss_walk names _ _ S) as SW; rewrite Es in SW.
      - destruct (mwalk names m0) as [s'|] eqn:E'; [|contradiction]. now apply (Hc names s').
      - destruct (mwalk names (M c [] subs)) as [s'|[]] eqn:E'; try contradiction. now apply (Hc names s'). }
    unfold init_params. destruct (set_rec (M c [] subs) p) as [m e] eqn:ES. destruct (C31_set V _ _ _ _ W ES) as (I1 & I2 & I3 & I4). split.
    + intro Hc. apply EC, I1 in Hc. subst e. exists m. split; [reflexivity|]. split; [|now apply I4]. 
      pose proof (set_restore (M c [] subs) m0 W S) as R0. clear - S I3. 
      assert (forall a b : model V, same_structure a b -> forall d, same_structure a d -> same_structure b d) as T; [|now apply (T (M c [] subs))].
      intro a; induction a as [c0 p0 s0 IH] using model_ind2. intros b Hb d Hd. inversion Hb as [? ? pb ? sb Fb]; subst. inversion Hd as [? ? pd ? sd Fd]; subst. constructor.
      clear Hb Hd. revert sd Fd. induction Fb as [|[k x] [k' y] s0 sb [E1 S1] Fb IHF]; intros sd Fd; inversion Fd as [|? [k2 z] ? sd' [E2 S2] Fd']; subst; constructor.
      * simpl in *. split; [congruence|]. eapply (IH k x); [now left|assumption|assumption].
      * apply IHF; [|assumption]. intros n sm Hin. apply (IH n sm). now right.
    + intro Hc. destruct I2 as [->| ->]; [|reflexivity]. exfalso. apply Hc, EC, I1. reflexivity.
Qed.
Print Assumptions C32_constructor.

(** a vehicle with two submodels, one of which has a submodel; building it by name, setting parameters with an extra child and reading them back *)
Definition ex_drs : mclass nat := {| cname := "DRS"; csubs := []; cdefaults := [("gain", 1)] |}.
Definition ex_aero : mclass nat := {| cname := "Aero"; csubs := [("drs", "DRS")]; cdefaults := [("cl", 2); ("cd", 3)] |}.
Definition ex_eng : mclass nat := {| cname := "Engine"; csubs := []; cdefaults := [("power", 4)] |}.
Definition ex_car : mclass nat := {| cname := "Car"; csubs := [("aero", "Aero"); ("engine", "Engine")]; cdefaults := [("mass", 5)] |}.
Definition ex_h : list (rop nat) := [RAdd ex_drs; RAdd ex_eng; RAdd ex_aero; RRemove ex_eng; RAdd ex_eng; RAdd ex_car].
Definition ex_car_model : model nat := M ex_car [("mass", 5)] [("aero", M ex_aero [("cl", 2); ("cd", 3)] [("drs", M ex_drs [("gain", 1)] [])]); ("engine", M ex_eng [("power", 4)] [])].
Example C32_nonvacuous : Forall (fun op => class_ok (op_class op)) ex_h /\ (exists t, make_config 1000 (rrun ex_h) "Car" = Ok t /\ make_model (rrun ex_h) t = Ok ex_car_model /\
    make_model (rrun ex_h) (Node "Car" [("aero", Node "Aero" [("drs", Node "DRS" [])]); ("engine", Node "Nonsense" [])]) = Raise KeyError) /\
  (exists s, get_submodel dot "aero.drs" ex_car_model = Ok s /\ mtype s = "DRS") /\ get_submodel dot "aero.engine" ex_car_model = Raise KeyError.
Proof.
  split; [repeat constructor; simpl; intuition discriminate|]. split; [eexists; split; [reflexivity|]; split; reflexivity|]. split; [eexists; split; reflexivity|reflexivity].
Qed.
Example C31_nonvacuous : wf_model ex_car_model /\ exists m', 
  set_rec ex_car_model (Node [("mass", 50)] [("extra", Node [] []); ("engine", Node [("power", 40)] []); ("aero", Node [("cl", 20)] [("drs", Node [] [])])]) = (m', None) /\
  get_rec m' = Node [("mass", 50)] [("aero", Node [("cl", 20)] [("drs", Node [] [])]); ("engine", Node [("power", 40)] [])].
Proof.
  split; [|eexists; split; reflexivity]. repeat (constructor; [simpl; repeat constructor; simpl; intuition discriminate|]; intros ? ? Hin; simpl in Hin; repeat (destruct Hin as [Hin|Hin]; [injection Hin as <- <-|]); try contradiction).
Qed.

(** *** What fails *)
(** a parameter tree without a child for a submodel raises, after some parameters have been changed *)
Theorem C31_not_atomic_refuted : exists (m m' : model nat) p, wf_model m /\ set_rec m p = (m', Some KeyError) /\ get_rec m' <> get_rec m.
Proof.
  exists ex_car_model. eexists. exists (Node [("mass", 50)] [("aero", Node [("cl", 20)] [("drs", Node [] [])])]). split; [apply C31_nonvacuous|]. split; [reflexivity|]. vm_compute. discriminate.
Qed.
(** a class that contains itself by default has no default configuration: RecursionError at every recursion limit *)
Theorem C32_recursive_class_refuted : exists c : mclass nat, class_ok c /\ forall fuel, make_config fuel (rrun [RAdd c]) (cname c) = Raise RecursionError.
Proof.
  exists {| cname := "T"; csubs := [("t", "T")]; cdefaults := [] |}. split; [repeat constructor; simpl; tauto|]. intro fuel. unfold make_config. change (get_model_class _ _) with (Ok {| cname := "T"; csubs := [("t", "T")]; cdefaults := @nil (string * nat) |}). cbn [bind].
  induction fuel as [|f IH]; [reflexivity|]. cbn [default_config csubs foldM snd]. change (get_model_class _ _) with (Ok {| cname := "T"; csubs := [("t", "T")]; cdefaults := @nil (string * nat) |}). cbn [bind]. now rewrite IH.
Qed.
