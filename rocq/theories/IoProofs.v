(** Proofs about names, vectors and submodel calls. *)
From Verif Require Import Base TreeModel TreeProofs UtilsModel UtilsProofs UtilsProofs2 IoModel IoSpec.

Lemma mem_In : forall n l, mem n l = true <-> In n l.
Proof. intros n l. unfold mem. rewrite existsb_exists. split; [intros (x & H & E); apply String.eqb_eq in E; now subst|intro H; exists n; split; [assumption|apply String.eqb_refl]]. Qed.
Lemma check_keys_ok : forall names given, (check_keys names given = Ok tt <-> incl names given) /\ (check_keys names given = Raise KeyError <-> ~ incl names given).
Proof.
  intros names given. unfold check_keys. assert (forallb (fun n => mem n given) names = true <-> incl names given) as E.
  { rewrite forallb_forall. unfold incl. split; intros H a Ha; specialize (H a Ha); now apply mem_In. }
  destruct (forallb (fun n => mem n given) names).
  - split; split; try discriminate; try reflexivity; intro H; [now apply E|exfalso; apply H; now apply E].
  - split; split; try discriminate; try reflexivity; intro H; [apply E in H; discriminate|intro H2; apply E in H2; discriminate].
Qed.

Section C.
Context {V : Type}.
Variable root : sm.
Hypothesis ND : NoDup (keys (sm_subs root)).
Notation cop := (cop V).
Notation buffer := (buffer V).

Lemma crun_snoc : forall (h : list cop) op, crun root (h ++ [op]) = fst (cstep root (crun root h) op).
Proof using. intros. unfold crun. now rewrite fold_left_app. Qed.
Lemma keys_clear : keys (@clear_buffer V root) = keys (sm_subs root).
Proof using. unfold clear_buffer, keys. rewrite map_map. reflexivity. Qed.
Lemma keys_step : forall (b : buffer) op, keys b = keys (sm_subs root) -> keys (fst (cstep root b op)) = keys (sm_subs root).
Proof using.
  intros b op H. destruct op as [n kw out|]; simpl.
  - unfold call_submodel. destruct (sm_walk _ _) as [[ss i s l]|]; [|exact H]. destruct (dget n b) as [[r|]|] eqn:E; try exact H. destruct (bind _ _); [|exact H]. destruct out; [|exact H]. simpl. rewrite keys_dset_in; [assumption|]. apply dget_some_iff. eauto.
  - unfold combine_outputs. destruct (foldM comb_step _ _); [apply keys_clear|exact H].
Qed.
Lemma keys_crun : forall (h : list cop), keys (crun root h) = keys (sm_subs root).
Proof using. intro h; induction h as [|op h IH] using rev_ind; [apply keys_clear|]. rewrite crun_snoc. now apply keys_step. Qed.
Lemma dget_clear : forall n r, dget n (@clear_buffer V root) <> Some (Some r).
Proof using. intros n r. unfold clear_buffer. clear ND. induction (sm_subs root) as [|[k t] l IH]; simpl; [discriminate|]. destruct (String.eqb n k); [discriminate|exact IH]. Qed.

(** the fold of [combine_outputs] *)
Lemma combine_fold : forall (b : buffer) acc,
  match foldM comb_step b acc with
  | Ok d => forall n o, In (n, o) b -> o <> None
  | Raise e => e = KeyError /\ exists n, In (n, None) b
  end.
Proof using.
  intros b; induction b as [|[n o] b IH]; intro acc; simpl; [intros ? ? []|]. unfold comb_step at 1. cbn [snd fst]. destruct o as [r|].
  - specialize (IH (dupdate acc (dict_of_list (map (fun kv => (prefixed n (fst kv), snd kv)) r)))). destruct (foldM comb_step b _) as [d|e].
    + intros n' o' [E|H]; [injection E as <- <-; discriminate|eauto].
    + destruct IH as [-> [n' H]]. split; [reflexivity|]. exists n'. now right.
  - split; [reflexivity|]. exists n. now left.
Qed.

Lemma combine_spec : forall (b : buffer), NoDup (keys b) ->
  ((exists d, snd (combine_outputs root b) = Ok d) <-> forall n, In n (keys b) -> exists r, dget n b = Some (Some r)) /\
  (forall e, snd (combine_outputs root b) = Raise e -> e = KeyError /\ fst (combine_outputs root b) = b) /\
  (forall d, snd (combine_outputs root b) = Ok d -> fst (combine_outputs root b) = clear_buffer root).
Proof using.
  intros b NDb. unfold combine_outputs. pose proof (combine_fold b []) as C. destruct (foldM comb_step b []) as [d|e]; simpl.
  - split; [|split; [discriminate|reflexivity]]. split; [|eauto]. intros _ n Hn. apply dget_some_iff in Hn. destruct Hn as [o Ho]. destruct o as [r|]; [eauto|]. exfalso. exact (C n None (dget_in _ _ _ _ Ho) eq_refl).
  - destruct C as [-> [n Hn]]. split; [|split; [|discriminate]].
    + split; [intros [d H]; discriminate|]. intro H. destruct (H n) as [r Hr]; [unfold keys; change n with (fst (n, @None (dict V))); now apply in_map|]. rewrite (in_dget _ _ _ _ NDb Hn) in Hr. discriminate.
    + intros e E. injection E as <-. auto.
Qed.

(** the buffer holds exactly the pending returns *)
Lemma pending_snoc : forall (h : list cop) op n r, pending root (h ++ [op]) n r <->
  (exists kw, op = Call n kw (Ok r) /\ returns root h op = Ok r) \/ (pending root h n r /\ (op = Combine -> exists e, returns root h Combine = Raise e)).
Proof using.
  intros h op n r. split.
  - intros (h1 & kw & h2 & E & Hr & Hc). destruct h2 as [|op2 h2 _] using rev_ind.
    + apply app_inj_tail in E. destruct E as [-> ->]. left. eauto.
    + rewrite app_comm_cons, app_assoc in E. apply app_inj_tail in E. destruct E as [-> ->]. right. split.
      * exists h1, kw, h2. split; [reflexivity|]. split; [assumption|]. intros a b ->. apply (Hc a (b ++ [op2])). now rewrite <- app_assoc.
      * intros ->. apply (Hc h2 []). reflexivity.
  - intros [(kw & -> & Hr)|[(h1 & kw & h2 & -> & Hr & Hc) Hop]].
    + exists h, kw, []. split; [reflexivity|]. split; [assumption|]. intros a b E. destruct a; discriminate.
    + exists h1, kw, (h2 ++ [op]). split; [now rewrite <- app_assoc|]. split; [assumption|]. intros a b E. destruct b as [|x b _] using rev_ind.
      * apply app_inj_tail in E. destruct E as [<- ->]. now apply Hop.
      * rewrite app_comm_cons, app_assoc in E. apply app_inj_tail in E. destruct E as [-> _]. now apply (Hc a b).
Qed.
Lemma buffer_pending : forall (h : list cop) n r, dget n (crun root h) = Some (Some r) <-> pending root h n r.
Proof using ND.
  intro h; induction h as [|op h IH] using rev_ind; intros n r.
  - split; [intro H; now apply dget_clear in H|]. intros (h1 & kw & h2 & E & _). destruct h1; discriminate.
  - rewrite crun_snoc, pending_snoc. unfold returns. destruct op as [k kw out|]; cbn [cstep].
    + unfold call_submodel. assert (forall (X : Prop), (dget n (crun root h) = Some (Some r) <-> (exists kw0, Call k kw out = Call n kw0 (Ok r) /\ X) \/ pending root h n r /\ (Call k kw out = Combine -> exists e, returns root h Combine = Raise e)) <-> (pending root h n r <-> (exists kw0, Call k kw out = Call n kw0 (Ok r) /\ X) \/ pending root h n r)) as EX.
      { intro X. rewrite IH. assert ((Call k kw out = Combine -> exists e, returns root h Combine = Raise e) <-> True) as -> by (split; [trivial|discriminate]). tauto. }
      destruct (sm_walk _ _) as [[ss i s l]|]; simpl; [|apply EX; split; [tauto|intros [(? & _ & E)|H]; [discriminate|exact H]]].
      destruct (dget k (crun root h)) as [[r0|]|] eqn:E; simpl; try (apply EX; split; [tauto|intros [(? & _ & E')|H]; [discriminate|exact H]]).
      destruct (bind _ _); simpl; [|apply EX; split; [tauto|intros [(? & _ & E')|H]; [discriminate|exact H]]].
      destruct out as [r0|e0]; simpl; [|apply EX; split; [tauto|intros [(? & _ & E')|H]; [discriminate|exact H]]].
      destruct (String.eqb_spec n k) as [->|Hne].
      * rewrite dget_dset_same. split.
        -- intro H. injection H as <-. left. eauto.
        -- intros [(kw0 & E1 & E2)|[H _]]; [congruence|]. apply IH in H. congruence.
      * rewrite dget_dset_other by congruence. rewrite IH. split; [intro H; right; split; [assumption|discriminate]|]. intros [(kw0 & E1 & _)|[H _]]; [congruence|assumption].
    + assert (NoDup (keys (crun root h))) as NDb by (rewrite keys_crun; exact ND). destruct (combine_spec _ NDb) as (_ & C2 & C3). 
      destruct (combine_outputs root (crun root h)) as [b' [d|e]]; simpl in *.
      * rewrite (C3 d eq_refl). split; [intro H; now apply dget_clear in H|]. intros [(kw & E & _)|[_ H]]; [discriminate|]. destruct (H eq_refl) as [e He]. discriminate.
      * destruct (C2 e eq_refl) as [_ ->]. rewrite IH. split; [intro H; right; split; [assumption|]; intros _; eauto|]. intros [(kw & E & _)|[H _]]; [discriminate|assumption].
Qed.

(** contents of the combined dictionary *)
Lemma prefixed_inj : forall n k n' k', no_char dot n = true -> no_char dot n' = true -> prefixed n k = prefixed n' k' -> n = n' /\ k = k'.
Proof using.
  intros n k n' k' H H' E. unfold prefixed in E. assert (Base.split dot (String.append n (String dot k)) = Base.split dot (String.append n' (String dot k'))) as E2 by now rewrite E.
  rewrite !split_append in E2 by assumption. injection E2 as <- E2. split; [reflexivity|]. now apply split_inj in E2.
Qed.
Lemma dget_dupdate : forall (e : dict V) d q, NoDup (keys e) -> dget q (dupdate d e) = match dget q e with Some v => Some v | None => dget q d end.
Proof using.
  intros e; induction e as [|[k v] e IH]; intros d q NDe; [reflexivity|]. simpl in NDe. apply NoDup_cons_iff in NDe. destruct NDe as [Hk NDe]. unfold dupdate in *. cbn [fold_left]. rewrite (IH _ _ NDe). cbn [fst snd dget].
  destruct (String.eqb_spec q k) as [->|Hne].
  - assert (dget k e = None) as -> by now apply dget_none. apply dget_dset_same.
  - destruct (dget q e); [reflexivity|]. apply dget_dset_other. congruence.
Qed.
Lemma dget_prefixed : forall n (r : dict V) q v, dget q (map (fun kv => (prefixed n (fst kv), snd kv)) r) = Some v <-> exists k, q = prefixed n k /\ dget k r = Some v.
Proof using.
  assert (forall n k k', prefixed n k = prefixed n k' -> k = k') as PI.
  { intros n k k'. unfold prefixed. induction n as [|a n IH]; simpl; intro E; injection E; auto. }
  intros n r q v; induction r as [|[k w] r IH]; simpl; [split; [discriminate|intros (k & _ & H); discriminate]|]. destruct (String.eqb_spec q (prefixed n k)) as [->|Hne].
  - split; [intro H; exists k; now rewrite String.eqb_refl|]. intros (k' & E & H). apply PI in E. subst k'. now rewrite String.eqb_refl in H.
  - rewrite IH. split; intros (k' & -> & H); exists k'; (split; [reflexivity|]); destruct (String.eqb_spec k' k) as [->|]; congruence.
Qed.
Lemma keys_prefixed_nodup : forall n (r : dict V), NoDup (keys r) -> NoDup (keys (map (fun kv => (prefixed n (fst kv), snd kv)) r)).
Proof using.
  assert (forall n k k', prefixed n k = prefixed n k' -> k = k') as PI.
  { intros n k k'. unfold prefixed. induction n as [|a n IH]; simpl; intro E; injection E; auto. }
  intros n r H; induction r as [|[k w] r IH]; simpl; [constructor|]. simpl in H. apply NoDup_cons_iff in H. destruct H as [Hk H]. constructor; [|auto]. intro Hin. apply Hk. unfold keys in Hin |- *. rewrite map_map in Hin. simpl in Hin.
  apply in_map_iff in Hin. destruct Hin as ([k' w'] & E & Hin). simpl in E. apply PI in E. subst k'. change k with (fst (k, w')). now apply in_map.
Qed.
Lemma combine_contents : forall (b : buffer) d, NoDup (keys b) -> Forall (fun n => no_char dot n = true) (keys b) -> (forall n r, dget n b = Some (Some r) -> NoDup (keys r)) ->
  snd (combine_outputs root b) = Ok d -> forall q v, dget q d = Some v <-> exists n k r, dget n b = Some (Some r) /\ q = prefixed n k /\ dget k r = Some v.
Proof using.
  intros b d NDb Hdot HR E. unfold combine_outputs in E. destruct (foldM comb_step b []) as [d'|] eqn:EF; [|discriminate]. simpl in E. injection E as ->.
  assert (forall (bs : buffer) acc, NoDup (keys bs) -> Forall (fun n => no_char dot n = true) (keys bs) -> (forall n r, dget n bs = Some (Some r) -> NoDup (keys r)) ->
    (forall n k, In n (keys bs) -> dget (prefixed n k) acc = None) ->
    foldM comb_step bs acc = Ok d ->
    forall q v, dget q d = Some v <-> dget q acc = Some v \/ exists n k r, dget n bs = Some (Some r) /\ q = prefixed n k /\ dget k r = Some v) as G.
  { clear EF b NDb Hdot HR. intros bs; induction bs as [|[n o] bs IH]; intros acc NDb Hdot HR Hacc EF q v.
    - simpl in EF. injection EF as <-. split; [tauto|]. intros [H|(n & k & r & H & _)]; [assumption|discriminate].
    - cbn [foldM] in EF. unfold comb_step at 1 in EF. cbn [snd fst] in EF. destruct o as [r|]; [|discriminate]. simpl in NDb. apply NoDup_cons_iff in NDb. destruct NDb as [Hn NDb]. inversion Hdot as [|? ? Hdn Hdot']; subst.
      assert (NoDup (keys r)) as NDr by (apply (HR n); simpl; now rewrite String.eqb_refl).
      assert (forall m r0, dget m bs = Some (Some r0) -> m <> n) as Hm by (intros m r0 H ->; apply Hn; apply dget_some_iff; eauto).
      rewrite dict_of_list_nodup in EF by (apply (keys_prefixed_nodup n r NDr)).
      assert (forall q, dget q (dupdate acc (map (fun kv => (prefixed n (fst kv), snd kv)) r)) = match dget q (map (fun kv => (prefixed n (fst kv), snd kv)) r) with Some v => Some v | None => dget q acc end) as DU by (intro; apply dget_dupdate; now apply keys_prefixed_nodup).
      rewrite (IH (dupdate acc (map (fun kv => (prefixed n (fst kv), snd kv)) r)) NDb Hdot').
      + rewrite DU. split.
        * intros [H|(m & k & r0 & H1 & H2 & H3)].
          -- destruct (dget q (map _ r)) as [w|] eqn:Eq.
             ++ right. injection H as <-. apply dget_prefixed in Eq. destruct Eq as (k & -> & Hk). exists n, k, r. simpl. rewrite String.eqb_refl. auto.
             ++ now left.
          -- right. exists m, k, r0. split; [|auto]. simpl. destruct (String.eqb_spec m n) as [->|]; [|assumption]. exfalso. now apply (Hm n r0).
        * intros [H|(m & k & r0 & H1 & -> & H3)].
          -- left. destruct (dget q (map _ r)) as [w|] eqn:Eq; [|assumption]. apply dget_prefixed in Eq. destruct Eq as (k & -> & _). rewrite (Hacc n k (or_introl eq_refl)) in H. discriminate.
          -- simpl in H1. destruct (String.eqb_spec m n) as [->|Hmn].
             ++ injection H1 as <-. left. assert (dget (prefixed n k) (map (fun kv => (prefixed n (fst kv), snd kv)) r) = Some v) as -> by (apply dget_prefixed; eauto). reflexivity.
             ++ right. exists m, k, r0. auto.
      + intros m r0 H. apply (HR m). simpl. destruct (String.eqb_spec m n) as [->|]; [|assumption]. exfalso. now apply (Hm n r0).
      + intros m k Hin. rewrite DU. destruct (dget (prefixed m k) (map _ r)) as [w|] eqn:Eq.
        * apply dget_prefixed in Eq. destruct Eq as (k' & E & _). assert (no_char dot m = true) as Hdm by (rewrite Forall_forall in Hdot'; now apply Hdot').
          destruct (prefixed_inj _ _ _ _ Hdm Hdn E) as [-> _]. contradiction.
        * apply Hacc. now right.
      + exact EF. }
  intros q v. rewrite (G b [] NDb Hdot HR) by (auto). split; [intros [H|H]; [discriminate|exact H]|tauto].
Qed.

(** a proper call reaches the submodel *)
Lemma proper_call : forall (b : buffer) n kw out, no_char dot n = true -> proper root n kw -> dget n b = Some None ->
  call_submodel root b n kw out = match out with Raise e => (b, Raise e) | Ok r => (dset n (Some r) b, Ok r) end.
Proof using.
  intros b n kw out Hd (ss & i & s & l & E & (gi & Ei & Hi) & Hs) Hb. unfold call_submodel. rewrite split_clean by assumption. cbn [sm_walk]. rewrite E, Hb.
  unfold check_group, lookup_err. rewrite Ei. cbn [bind]. destruct (check_keys_ok i gi) as [C _]. rewrite (proj2 C Hi). cbn [bind]. destruct ss; [|destruct out; reflexivity].
  destruct (Hs eq_refl) as (gs & Es & His). rewrite Es. cbn [bind]. destruct (check_keys_ok s gs) as [C' _]. rewrite (proj2 C' His). destruct out; reflexivity.
Qed.
End C.
