(** Lemmas for C62: every event keeps the owners apart. *)
From Verif Require Import Base TreeModel TreeSpec TreeProofs ShareModel ShareSpec ShareProofs ShareProofs2.

Section P.
Context {V : Type}.
Implicit Types (h : heap V) (T : ptree V).
Implicit Types (cn cd : nat -> nat).
Implicit Types (w : world V) (e : event V).

(** the colours that an event leaves alone *)
Definition spared (e : event V) : nat -> Prop :=
  match e with ONew _ _ _ => fun _ => True | OMod k _ _ => fun c => c <> 1 + 2 * k | _ => fun c => c <> 0 end.

Lemma pick_ok : forall A (l : list A) i a, pick l i = Ok a -> nth_error l i = Some a.
Proof. intros A l i a. unfold pick. destruct (nth_error l i); [|discriminate]. intro E. now injection E as ->. Qed.
Lemma bind_ok : forall A B (r : result A) (f : A -> result B) b, bind r f = Ok b -> exists a, r = Ok a /\ f a = Ok b.
Proof. intros A B [a|e] f b H; [now exists a|discriminate]. Qed.
Lemma fmap_ok : forall A B (r : result A) (f : A -> B) b, fmap f r = Ok b -> exists a, r = Ok a /\ f a = b.
Proof. intros A B [a|e] f b H; [exists a; split; [reflexivity|now injection H]|discriminate]. Qed.
Lemma nth_put : forall A (l : list A) k a j, nth_error (put_at k a l) j = if Nat.eqb j k then (match nth_error l k with Some _ => Some a | None => None end) else nth_error l j.
Proof.
  intros A l. induction l as [|x r IH]; intros k a j; destruct k as [|k], j as [|j]; cbn [put_at nth_error Nat.eqb]; auto.
  destruct (Nat.eqb j k); reflexivity.
Qed.

(** user objects stay with the user *)
Lemma user_step : forall lim w w' cn cd cn' cd' trees dicts, inv lim w cn cd ->
  evolve (w_h w) cn cd (w_h w') cn' cd' (fun c => c <> 0) ->
  w_trees w' = w_trees w ++ trees -> Forall (fun l => l < h_nn (w_h w') /\ cn' l = 0) trees ->
  w_dicts w' = w_dicts w ++ dicts -> Forall (fun d => d < h_nd (w_h w') /\ cd' d = 0) dicts -> w_ocps w' = w_ocps w ->
  inv lim w' cn' cd'.
Proof.
  intros lim w w' cn cd cn' cd' trees dicts [i1 i2 i3 i4] Ev Et Ht Ed Hd Eo. constructor.
  - apply (ev_closed _ _ _ _ _ _ _ Ev).
  - rewrite Et. apply Forall_app. split; [|exact Ht]. exact (user_refs _ _ _ _ _ _ _ _ Ev i2).
  - rewrite Ed. apply Forall_app. split; [|exact Hd]. exact (user_drefs _ _ _ _ _ _ _ _ Ev i3).
  - intros k o E. rewrite Eo in E. destruct (i4 k o E) as (T & O). exists T. apply (ocp_frame lim (w_h w) cn cd _ _ _ (fun c => c <> 0) k o T i1 Ev); [lia|lia|exact O].
Qed.
Lemma hget_params_ext : forall h m, Forall (fun d => d < h_nd h) (trefs m) -> let x := hget_recursive h m in
  ext h (fst x) /\ own h (fst x) /\ h_nn h <= snd x < h_nn (fst x) /\ denotes (fst x) (snd x) (tmap (h_dicts h) m) /\ NoDup (drefs (fst x) (tmap (h_dicts h) m) (snd x)).
Proof. intros h m H. cbv zeta. rewrite (hget_build m h H). apply hbuild_spec. Qed.
Lemma nth_Forall : forall A (P : A -> Prop) l i a, Forall P l -> nth_error l i = Some a -> P a.
Proof. intros A P l i a H E. rewrite Forall_forall in H. apply H. now apply nth_error_In in E. Qed.

Lemma step_user : forall lim w e w' cn cd, inv lim w cn cd -> of_user e -> step lim w e = Ok w' ->
  exists cn' cd', inv lim w' cn' cd' /\ evolve (w_h w) cn cd (w_h w') cn' cd' (fun c => c <> 0) /\ w_ocps w' = w_ocps w.
Proof.
  intros lim w e w' cn cd I U H. pose proof I as [i1 i2 i3 i4].
  assert (TR : forall i l, pick (w_trees w) i = Ok l -> l < h_nn (w_h w) /\ cn l = 0) by (intros i l E; apply pick_ok in E; exact (nth_Forall _ _ _ _ _ i2 E)).
  assert (DR : forall i l, pick (w_dicts w) i = Ok l -> l < h_nd (w_h w) /\ cd l = 0) by (intros i l E; apply pick_ok in E; exact (nth_Forall _ _ _ _ _ i3 E)).
  assert (LD : forall p l n, l < h_nn (w_h w) -> hget_subtree (w_h w) dot p l = Ok n -> n < h_nn (w_h w) /\ cn n = cn l).
  { intros p l n Hl E. apply hwalk_leads in E. now apply (leads_color _ _ _ _ _ _ i1 E). }
  assert (RF : forall P, evolve (w_h w) cn cd (w_h w) cn cd P) by (intro P; now apply evolve_refl).
  destruct e as [d|j k v|j cs|i p|i|i j|i p v|i p i2'|i|k|shape i cas|k p v]; cbn [step] in H; try contradiction.
  - (* UDict *) injection H as <-. exists (rc cn (h_nn (w_h w)) 0), (rc cd (h_nd (w_h w)) 0).
    pose proof (evolve_alloc _ _ cn cd 0 i1 (new_dict_ext (w_h w) d) (fun l Hl => ltac:(cbn in Hl; lia))) as Ev.
    assert (Ev' : evolve (w_h w) cn cd (w_h (with_dict w (new_dict (w_h w) d))) (rc cn (h_nn (w_h w)) 0) (rc cd (h_nd (w_h w)) 0) (fun c => c <> 0)) by (eapply evolve_weaken; [|exact Ev]; auto).
    split; [|now split]. eapply (user_step lim w _ cn cd _ _ [] _ I); [exact Ev'|..]; cbn; try reflexivity; try (symmetry; apply app_nil_r); try constructor; try constructor.
    + lia. + now apply rc_new.
  - (* UPut *) apply bind_ok in H. destruct H as (d & E & H). injection H as <-. destruct (DR _ _ E) as (D1 & D2).
    pose proof (evolve_put_dict _ cn cd d (dset k v (h_dicts (w_h w) d)) i1) as Ev. rewrite D2 in Ev. exists cn, cd.
    split; [|now split]. eapply (user_step lim w _ cn cd _ _ [] [] I); [exact Ev|..]; cbn; try (symmetry; apply app_nil_r); try constructor.
  - (* UTree *) apply bind_ok in H. destruct H as (d & E & H). apply bind_ok in H. destruct H as (c & Ec & H). injection H as <-. destruct (DR _ _ E) as (D1 & D2).
    assert (Cs : Forall (fun kc => snd kc < h_nn (w_h w) /\ cn (snd kc) = 0) c).
    { clear - Ec TR. revert c Ec. induction cs as [|[n i] r IH]; intros c Ec; cbn [mapM] in Ec; [injection Ec as <-; constructor|]. cbn [fst snd] in Ec.
      destruct (pick (w_trees w) i) as [l|] eqn:El; cbn [fmap] in Ec; [|discriminate]. destruct (mapM _ r) as [q|]; [|discriminate]. injection Ec as <-.
      constructor; [cbn; now apply (TR i)|now apply IH]. }
    set (h' := fst (new_node (w_h w) d c)).
    assert (Ev : evolve (w_h w) cn cd h' (rc cn (h_nn (w_h w)) 0) (rc cd (h_nd (w_h w)) 0) (fun c => c <> 0)).
    { constructor; try (cbn; lia); try (intros; now apply rc_old).
      - intros l Hl. cbn in Hl. cbn [h' new_node fst h_nodes h_nn h_nd]. destruct (Nat.eqb_spec l (h_nn (w_h w))) as [->|Ne].
        + cbn [o_data o_children]. rewrite rc_old, rc_new by lia. split; [exact D1|]. split; [exact D2|]. eapply Forall_impl; [|exact Cs]. cbn beta. intros x (X1 & X2). rewrite rc_old by exact X1. split; [lia|exact X2].
        + destruct (i1 l ltac:(lia)) as (X & Y & Z). rewrite !rc_old by lia. split; [exact X|]. split; [exact Y|]. eapply Forall_impl; [|exact Z]. cbn beta. intros x (X1 & X2). rewrite rc_old by exact X1. split; [lia|exact X2].
      - intros q _. split; [|reflexivity]. intros l Hl _. cbn. destruct (Nat.eqb_spec l (h_nn (w_h w))); [lia|reflexivity]. }
    exists (rc cn (h_nn (w_h w)) 0), (rc cd (h_nd (w_h w)) 0).
    split; [|now split]. eapply (user_step lim w _ cn cd _ _ _ [] I); [exact Ev|..]; cbn; try reflexivity; try (symmetry; apply app_nil_r); try constructor; try constructor.
    + lia. + now apply rc_new.
  - (* USub *) apply bind_ok in H. destruct H as (l & E & H). apply fmap_ok in H. destruct H as (s & Es & <-). destruct (TR _ _ E) as (L1 & L2). destruct (LD _ _ _ L1 Es) as (S1 & S2).
    exists cn, cd. split; [|split; [apply RF|reflexivity]].
    eapply (user_step lim w _ cn cd _ _ [s] [] I); [apply RF|..]; cbn; try reflexivity; try (symmetry; apply app_nil_r); try constructor; try constructor; [exact S1|congruence].
  - (* UDataOf *) apply bind_ok in H. destruct H as (l & E & H). injection H as <-. destruct (TR _ _ E) as (L1 & L2). destruct (i1 l L1) as (S1 & S2 & _).
    exists cn, cd. split; [|split; [apply RF|reflexivity]].
    eapply (user_step lim w _ cn cd _ _ [] [_] I); [apply RF|..]; cbn; try reflexivity; try (symmetry; apply app_nil_r); try constructor; try constructor; [exact S1|congruence].
  - (* USetData *) apply bind_ok in H. destruct H as (l & E & H). apply bind_ok in H. destruct H as (d & Ed & H). injection H as <-. destruct (TR _ _ E) as (L1 & L2). destruct (DR _ _ Ed) as (D1 & D2).
    destruct (i1 l L1) as (S1 & S2 & S3).
    pose proof (evolve_put_node _ cn cd l {| o_data := d; o_children := o_children (h_nodes (w_h w) l) |} i1 L1 D1 ltac:(cbn; congruence) S3) as Ev. rewrite L2 in Ev.
    exists cn, cd. split; [|now split]. eapply (user_step lim w _ cn cd _ _ [] [] I); [exact Ev|..]; cbn; try (symmetry; apply app_nil_r); try constructor.
  - (* USet *) apply bind_ok in H. destruct H as (l & E & H). apply fmap_ok in H. destruct H as (h' & Es & <-). destruct (TR _ _ E) as (L1 & L2).
    unfold hset_param in Es. cbv zeta in Es. apply bind_ok in Es. destruct Es as (n & En & Es). injection Es as <-. destruct (LD _ _ _ L1 En) as (S1 & S2). destruct (i1 n S1) as (X & Y & _).
    match goal with |- context [put_dict _ ?a ?b] => pose proof (evolve_put_dict _ cn cd a b i1) as Ev end. rewrite Y, S2, L2 in Ev.
    exists cn, cd. split; [|now split]. eapply (user_step lim w _ cn cd _ _ [] [] I); [exact Ev|..]; cbn; try (symmetry; apply app_nil_r); try constructor.
  - (* UReplace *) apply bind_ok in H. destruct H as (l & E & H). apply bind_ok in H. destruct H as (s & Es & H). apply fmap_ok in H. destruct H as (h' & Er & <-).
    destruct (TR _ _ E) as (L1 & L2). destruct (TR _ _ Es) as (M1 & M2). unfold hreplace_subtree in Er. cbv zeta in Er. apply bind_ok in Er. destruct Er as (n & En & Er).
    destruct (dmem _ _); [|discriminate]. injection Er as <-. destruct (LD _ _ _ L1 En) as (S1 & S2). destruct (i1 n S1) as (X & Y & Z).
    match goal with |- context [put_node _ n ?b] => pose proof (evolve_put_node _ cn cd n b i1 S1 X Y) as Ev end. rewrite S2, L2 in Ev. cbn [o_children] in Ev.
    assert (Fd : forall k (q : dict nat), Forall (fun kc => snd kc < h_nn (w_h w) /\ cn (snd kc) = 0) q -> Forall (fun kc => snd kc < h_nn (w_h w) /\ cn (snd kc) = 0) (dset k s q)).
    { intros k q. induction q as [|[a b] q IH]; intro F; cbn [dset]; [constructor; [now split|constructor]|]. inversion F as [|? ? F1 F2]; subst. destruct (String.eqb k a); constructor; auto. }
    specialize (Ev ltac:(apply Fd; rewrite S2, L2 in Z; exact Z)).
    exists cn, cd. split; [|now split]. eapply (user_step lim w _ cn cd _ _ [] [] I); [exact Ev|..]; cbn; try (symmetry; apply app_nil_r); try constructor.
  - (* UCopy *) apply bind_ok in H. destruct H as (l & E & H). apply fmap_ok in H. destruct H as (x & Ex & <-). unfold hcopy in Ex. apply fmap_ok in Ex. destruct Ex as (T & ET & <-).
    destruct (hbuild_spec T (w_h w)) as (B1 & B2 & B3 & B4 & B5).
    pose proof (evolve_alloc _ _ cn cd 0 i1 B1 B2) as Ev.
    assert (Ev' : evolve (w_h w) cn cd (w_h (with_tree w (hbuild (w_h w) T))) (rc cn (h_nn (w_h w)) 0) (rc cd (h_nd (w_h w)) 0) (fun c => c <> 0)) by (eapply evolve_weaken; [|exact Ev]; auto).
    exists (rc cn (h_nn (w_h w)) 0), (rc cd (h_nd (w_h w)) 0).
    split; [|now split]. eapply (user_step lim w _ cn cd _ _ _ [] I); [exact Ev'|..]; cbn; try reflexivity; try (symmetry; apply app_nil_r); try constructor; try constructor; [lia|now apply rc_new].
  - (* UGet *) apply bind_ok in H. destruct H as (o & E & H). injection H as <-. apply pick_ok in E. destruct (i4 k o E) as (T & [o1 o2 o3 o4 o5 o6 o7 o8 o9]).
    assert (Fr : Forall (fun d => d < h_nd (w_h w)) (trefs (r_model o))) by (eapply Forall_impl; [|exact o3]; cbn beta; tauto).
    destruct (hget_params_ext (w_h w) (r_model o) Fr) as (B1 & B2 & B3 & B4 & B5).
    pose proof (evolve_alloc _ _ cn cd 0 i1 B1 B2) as Ev.
    assert (Ev' : evolve (w_h w) cn cd (w_h (with_tree w (hget_recursive (w_h w) (r_model o)))) (rc cn (h_nn (w_h w)) 0) (rc cd (h_nd (w_h w)) 0) (fun c => c <> 0)) by (eapply evolve_weaken; [|exact Ev]; auto).
    exists (rc cn (h_nn (w_h w)) 0), (rc cd (h_nd (w_h w)) 0).
    split; [|now split]. eapply (user_step lim w _ cn cd _ _ _ [] I); [exact Ev'|..]; cbn; try reflexivity; try (symmetry; apply app_nil_r); try constructor; try constructor; [lia|now apply rc_new].
Qed.

(** a new problem *)
Lemma dext_own : forall h h', dext h h' -> own h h'.
Proof. intros h h' [a b c d] l Hl. lia. Qed.
Lemma step_new : forall lim w shape i cas w' cn cd, inv lim w cn cd -> distinct_names shape -> step lim w (ONew shape i cas) = Ok w' ->
  exists cn' cd' l o T, inv lim w' cn' cd' /\ evolve (w_h w) cn cd (w_h w') cn' cd' (fun _ => True) /\ nth_error (w_trees w) i = Some l /\
    w_ocps w' = w_ocps w ++ [o] /\ w_trees w' = w_trees w /\ w_dicts w' = w_dicts w /\
    ocp_inv lim (w_h w') cn' cd' (List.length (w_ocps w)) o T /\ shape_of T = shape /\ seen (w_h w) l T.
Proof.
  intros lim w shape i cas w' cn cd I Dn H. pose proof I as [i1 i2 i3 i4]. cbn [step] in H. apply bind_ok in H. destruct H as (l & E & H). apply fmap_ok in H. destruct H as ([h' o] & Eo & <-).
  apply pick_ok in E. destruct (nth_Forall _ _ _ _ _ i2 E) as (L1 & L2). unfold hnew_ocp in Eo. apply bind_ok in Eo. destruct Eo as ([h1 m] & E1 & Eo). cbv zeta in Eo. cbn [fst snd] in Eo.
  apply fmap_ok in Eo. destruct Eo as (c & Ec & Eo). injection Eo as <- <-. cbn [fst snd].
  destruct (hset_spec _ _ _ _ _ (closed_valid _ _ _ i1) L1 E1) as (A1 & A2 & A3 & A4).
  set (k := List.length (w_ocps w)). set (T := tmap (h_dicts h1) m) in *.
  pose proof (evolve_alloc _ _ cn cd (2 + 2 * k) i1 (dext_ext _ _ A1) (dext_own _ _ A1)) as Ev1. set (cn1 := rc cn (h_nn (w_h w)) (2 + 2 * k)) in *. set (cd1 := rc cd (h_nd (w_h w)) (2 + 2 * k)) in *.
  assert (Fr : Forall (fun d => d < h_nd h1) (trefs m)) by (eapply Forall_impl; [|exact A2]; cbn beta; lia).
  destruct (hget_params_ext h1 m Fr) as (B1 & B2 & B3 & B4 & B5). fold T in B4, B5. set (x := hget_recursive h1 m) in *.
  pose proof (evolve_alloc _ _ cn1 cd1 (1 + 2 * k) (ev_closed _ _ _ _ _ _ _ Ev1) B1 B2) as Ev2. set (cn2 := rc cn1 (h_nn h1) (1 + 2 * k)) in *. set (cd2 := rc cd1 (h_nd h1) (1 + 2 * k)) in *.
  pose proof (evolve_trans _ _ _ _ _ _ _ _ _ _ _ Ev1 Ev2) as Ev. apply (evolve_weaken _ _ _ _ _ _ _ (fun _ => True)) in Ev; [|tauto].
  assert (Sh : shape_of T = shape) by (unfold T; now rewrite tmap_shape).
  set (o := {| r_params := snd x; r_model := m; r_con := c; r_cas := cas |}).
  assert (OI : ocp_inv lim (fst x) cn2 cd2 k o T).
  { constructor; cbn [r_params r_model r_con r_cas o]; auto; try lia.
    - unfold cn2. now rewrite rc_new by lia.
    - pose proof (ex_nd _ _ B1). eapply Forall_impl; [|exact A2]. cbn beta. intros d Hd. split; [lia|]. unfold cd2, cd1. rewrite rc_old by lia. now rewrite rc_new by lia.
    - unfold T. apply tmap_ext. eapply Forall_impl; [|exact Fr]. cbn beta. intros d Hd. now apply (ex_dicts _ _ B1).
    - apply (names_shape _ _ shape); [|exact Dn]. now rewrite <- Sh, shape_shape.
    - unfold hset_params in Ec. destruct cas; [|now injection Ec as <-]. apply fmap_ok in Ec. destruct Ec as (T' & ET & <-). apply hread_sound in ET. now rewrite (denotes_fun _ _ _ _ ET B4).
    - intros ->. unfold hset_params in Ec. apply fmap_ok in Ec. destruct Ec as (T' & ET & <-). pose proof (hread_depth _ _ _ _ ET). apply hread_sound in ET. now rewrite <- (denotes_fun _ _ _ _ ET B4). }
  exists cn2, cd2, l, o, T. split; [|exact (conj Ev (conj E (conj eq_refl (conj eq_refl (conj eq_refl (conj OI (conj Sh A4)))))))].
  constructor; cbn [w_h w_trees w_dicts w_ocps].
  - apply (ev_closed _ _ _ _ _ _ _ Ev).
  - eapply user_refs; [exact Ev|exact i2].
  - eapply user_drefs; [exact Ev|exact i3].
  - intros j q Ej. destruct (Nat.lt_ge_cases j k) as [Lj|Lj].
    + rewrite nth_error_app1 in Ej by exact Lj. destruct (i4 j q Ej) as (Tj & Oj). exists Tj. eapply (ocp_frame lim (w_h w)); [exact i1|exact Ev|exact Logic.I|exact Logic.I|exact Oj].
    + rewrite nth_error_app2 in Ej by exact Lj. fold k in Ej. destruct (j - k) as [|z] eqn:Ez; cbn [nth_error] in Ej; [|now destruct z]. injection Ej as <-. replace j with k by lia. now exists T.
Qed.

(** a modification *)
Lemma modify_inv : forall lim h cn cd k o T p v, closed h cn cd -> ocp_inv lim h cn cd k o T ->
  match set_param dot p v T with
  | Ok T' => depth T <= lim -> exists h' o' cn' cd', hmodify lim h o p v = Ok (h', o') /\ evolve h cn cd h' cn' cd' (fun c => c <> 1 + 2 * k) /\ ocp_inv lim h' cn' cd' k o' T'
  | Raise e => hmodify lim h o p v = Raise e
  end.
Proof.
  intros lim h cn cd k o T p v Hc O. pose proof O as [o1 o2 o3 o4 o5 o6 o7 o8 o9]. pose proof (set_unshared h (r_params o) T p v o4 o5) as SU.
  unfold hmodify. destruct (set_param dot p v T) as [T'|e] eqn:Es; [|now rewrite SU]. destruct SU as (d & x & S1 & S2 & S3). rewrite S1. cbn [bind]. intro Dp.
  destruct (frame h h cn cd (1 + 2 * k) Hc ltac:(now split) T (r_params o) o1 o2 o4) as (_ & _ & F3).
  rewrite Forall_forall in F3. destruct (F3 d S2) as (D1 & D2).
  pose proof (evolve_put_dict h cn cd d x Hc) as Ev1. rewrite D2 in Ev1. set (h1 := put_dict h d x) in *.
  pose proof (set_shape _ _ _ _ Es) as Sh.
  assert (Dn : distinct_names T') by (apply (names_shape _ _ T); [now symmetry|exact o7]).
  assert (Smd : shape_of (r_model o) = shape_of T) by (rewrite <- o6; now rewrite tmap_shape).
  assert (Va : valid h1) by (apply (closed_valid _ cn cd); apply (ev_closed _ _ _ _ _ _ _ Ev1)).
  assert (Sn : seen h1 (r_params o) T') by now apply denotes_seen.
  unfold hset_model_params. destruct (hset_total (shape_of (r_model o)) h1 (r_params o) T' Va o1 Sn) as ([h2 m] & E2); [now rewrite Sh|]. rewrite E2. cbn [bind fst snd].
  destruct (hset_spec _ _ _ _ _ Va o1 E2) as (A1 & A2 & A3 & A4).
  assert (ET : tmap (h_dicts h2) m = T'). { apply (seen_shape_eq h1 _ _ (r_params o) A4 Sn). now rewrite tmap_shape, A3, Smd, Sh. }
  pose proof (evolve_alloc _ _ cn cd (2 + 2 * k) (ev_closed _ _ _ _ _ _ _ Ev1) (dext_ext _ _ A1) (dext_own _ _ A1)) as Ev2.
  set (cn2 := rc cn (h_nn h1) (2 + 2 * k)) in *. set (cd2 := rc cd (h_nd h1) (2 + 2 * k)) in *.
  pose proof (evolve_trans _ _ _ _ _ _ _ _ _ _ _ Ev1 Ev2) as Ev. apply (evolve_weaken _ _ _ _ _ _ _ (fun c => c <> 1 + 2 * k)) in Ev; [|tauto].
  destruct (frame h1 h2 cn cd (1 + 2 * k) (ev_closed _ _ _ _ _ _ _ Ev1) (ev_agree _ _ _ _ _ _ _ Ev2 _ Logic.I) T' (r_params o) o1 o2 S3) as (G1 & G2 & _).
  assert (Dp' : depth T' <= lim) by (rewrite (depth_shape _ _ T' T Sh); exact Dp).
  assert (Ec : hset_params lim h2 (r_cas o) (r_params o) = Ok (if r_cas o then Flat (map snd (make_flat_dict "" T')) else Live (r_params o))).
  { unfold hset_params. destruct (r_cas o); [|reflexivity]. now rewrite (hread_complete T' lim h2 _ G1 Dp'). }
  rewrite Ec. cbn [fmap]. exists h2. eexists. exists cn2, cd2. split; [reflexivity|]. split; [exact Ev|].
  constructor; cbn [r_params r_model r_con r_cas]; auto.
  - pose proof (dx_nn _ _ A1). cbn in *. lia.
  - unfold cn2. rewrite rc_old; auto.
  - eapply Forall_impl; [|exact A2]. cbn beta. intros y Hy. split; [lia|]. unfold cd2. now rewrite rc_new by lia.
  - rewrite G2. assert (N : drefs h1 T' (r_params o) = drefs h T' (r_params o)) by now apply drefs_nodes. rewrite N.
    assert (Q : drefs h T' (r_params o) = drefs h T (r_params o)); [|now rewrite Q].
    clear - Sh. generalize (r_params o). revert T Sh. induction T' as [d' cs' IH] using tree_ind2. intros [d cs] E l. cbn [shape_of] in E. injection E as E. rewrite !drefs_node. f_equal.
    generalize (o_children (h_nodes h l)). revert cs E. induction IH as [|[n t] r It Ir IHr]; intros [|[n' t'] cs] E os; cbn [map] in E; try discriminate; [reflexivity|].
    injection E as -> E1 E2. cbn [fst snd] in *. destruct os as [|[m c] os]; [reflexivity|]. cbn [krefs snd]. rewrite (It t' E1), (IHr cs E2). reflexivity.
Qed.
Lemma step_mod : forall lim w k p v w' cn cd, inv lim w cn cd -> step lim w (OMod k p v) = Ok w' ->
  exists cn' cd' o o' T T', inv lim w' cn' cd' /\ evolve (w_h w) cn cd (w_h w') cn' cd' (fun c => c <> 1 + 2 * k) /\ nth_error (w_ocps w) k = Some o /\ ocp_inv lim (w_h w) cn cd k o T /\
    set_param dot p v T = Ok T' /\ w_ocps w' = put_at k o' (w_ocps w) /\ w_trees w' = w_trees w /\ w_dicts w' = w_dicts w /\ ocp_inv lim (w_h w') cn' cd' k o' T'.
Proof.
  intros lim w k p v w' cn cd I H. pose proof I as [i1 i2 i3 i4]. cbn [step] in H. apply bind_ok in H. destruct H as (o & E & H). apply pick_ok in E.
  destruct (i4 k o E) as (T & O). pose proof (modify_inv lim (w_h w) cn cd k o T p v i1 O) as M. apply fmap_ok in H. destruct H as ([h' o'] & Em & <-). cbn [fst snd].
  destruct (set_param dot p v T) as [T'|e] eqn:Es; [|congruence].
  assert (Dp : r_cas o = true \/ r_cas o = false) by (destruct (r_cas o); auto).
  assert (K : exists cn' cd', evolve (w_h w) cn cd h' cn' cd' (fun c => c <> 1 + 2 * k) /\ ocp_inv lim h' cn' cd' k o' T').
  { destruct Dp as [Dp|Dp].
    - destruct (M (oi_depth _ _ _ _ _ _ _ O Dp)) as (h2 & o2 & cn' & cd' & M1 & M2 & M3). rewrite Em in M1. injection M1 as <- <-. now exists cn', cd'.
    - (* with jax the depth does not matter *)
      assert (O2 : ocp_inv (max lim (depth T)) (w_h w) cn cd k o T) by (destruct O; constructor; auto; rewrite Dp; discriminate).
      pose proof (modify_inv (max lim (depth T)) (w_h w) cn cd k o T p v i1 O2) as M'. rewrite Es in M'. destruct (M' ltac:(lia)) as (h2 & o2 & cn' & cd' & M1 & M2 & M3).
      assert (Eq : hmodify (max lim (depth T)) (w_h w) o p v = hmodify lim (w_h w) o p v). { unfold hmodify, hset_model_params, hset_params. now rewrite Dp. }
      rewrite Eq, Em in M1. injection M1 as <- <-. exists cn', cd'. split; [exact M2|].
      assert (Rc : r_cas o' = false). { clear - Em Dp. unfold hmodify, hset_model_params in Em. apply bind_ok in Em. destruct Em as (? & _ & Em). apply bind_ok in Em. destruct Em as (? & _ & Em). apply fmap_ok in Em. destruct Em as (? & _ & Em). injection Em as _ <-. exact Dp. }
      destruct M3; constructor; auto. rewrite Rc. discriminate. }
  destruct K as (cn' & cd' & Ev & O'). exists cn', cd', o, o', T, T'. split; [|exact (conj Ev (conj E (conj O (conj Es (conj eq_refl (conj eq_refl (conj eq_refl O')))))))].
  constructor; cbn [w_h w_trees w_dicts w_ocps].
  - apply (ev_closed _ _ _ _ _ _ _ Ev).
  - eapply user_refs; [exact Ev|exact i2].
  - eapply user_drefs; [exact Ev|exact i3].
  - intros j q Ej. rewrite nth_put in Ej. destruct (Nat.eqb_spec j k) as [->|Ne].
    + rewrite E in Ej. injection Ej as <-. now exists T'.
    + destruct (i4 j q Ej) as (Tj & Oj). exists Tj. eapply (ocp_frame lim (w_h w)); [exact i1|exact Ev|cbn beta; lia|cbn beta; lia|exact Oj].
Qed.

Lemma step_inv : forall lim w e w' cn cd, inv lim w cn cd -> possible e -> step lim w e = Ok w' ->
  exists cn' cd', inv lim w' cn' cd' /\ evolve (w_h w) cn cd (w_h w') cn' cd' (spared e).
Proof.
  intros lim w e w' cn cd I Po H.
  assert (U : of_user e -> spared e = (fun c => c <> 0)) by (destruct e; cbn; tauto).
  assert (D : of_user e \/ ~ of_user e) by (destruct e; cbn; tauto). destruct D as [D|D].
  - rewrite (U D). destruct (step_user _ _ _ _ _ _ I D H) as (cn' & cd' & A & B & _). exists cn', cd'. split; [exact A|exact B].
  - clear U. destruct e as [d|j k v|j cs|i p|i|i j|i p v|i p i2'|i|k|shape i cas|k p v]; cbn [of_user] in D; try tauto.
    + destruct (step_new _ _ _ _ _ _ _ _ I Po H) as (cn' & cd' & l & o & T & A & B & _). exists cn', cd'. split; [exact A|exact B].
    + destruct (step_mod _ _ _ _ _ _ _ _ I H) as (cn' & cd' & o & o' & T & T' & A & B & _). exists cn', cd'. split; [exact A|exact B].
Qed.
Lemma inv_start : forall lim, @inv V lim start (fun _ => 0) (fun _ => 0).
Proof.
  intro lim. constructor; cbn.
  - intros l Hl. cbn in Hl. lia.
  - constructor.
  - constructor.
  - intros k o E. now destruct k.
Qed.
Lemma run_inv : forall lim es w w' cn cd, inv lim w cn cd -> Forall possible es -> run lim w es = Ok w' -> exists cn' cd', inv lim w' cn' cd'.
Proof.
  intros lim es. induction es as [|e r IH]; intros w w' cn cd I P H; cbn [run] in H.
  - injection H as <-. now exists cn, cd.
  - inversion P as [|? ? P1 P2]; subst. apply bind_ok in H. destruct H as (w1 & E & H). destruct (step_inv _ _ _ _ _ _ I P1 E) as (cn1 & cd1 & I1 & _). exact (IH w1 w' cn1 cd1 I1 P2 H).
Qed.
Lemma reachable_inv : forall lim w, reachable lim w -> exists cn cd, inv lim w cn cd.
Proof. intros lim w (es & P & R). exact (run_inv lim es start w _ _ (inv_start lim) P R). Qed.
End P.
