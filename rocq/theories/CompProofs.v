(** Proofs about composite models. *)
From Verif Require Import Base TreeModel TreeSpec TreeProofs CompModel CompSpec.

Section P.
Context {V : Type}.
Notation model := (model V).
Notation mclass := (mclass V).

Lemma model_ind2 : forall (P : model -> Prop), (forall c p s, (forall n sm, In (n, sm) s -> P sm) -> P (M c p s)) -> forall m, P m.
Proof.
  intros P H. fix IH 1. intros [c p s]. apply H. induction s as [|[n sm] s IHs]; intros n' sm' Hin; [destruct Hin|].
  destruct Hin as [E|Hin]; [injection E as _ <-; apply IH|exact (IHs n' sm' Hin)].
Qed.

Lemma set_rec_eq : forall (c : mclass) p0 s (p : ptree V), set_rec (M c p0 s) p = let '(s', e) := set_loop s p in (M c (tdata p) s', e).
Proof.
  intros c p0 s p. assert (forall l, (fix loop (l : list (string * model)) : list (string * model) * option exn :=
           match l with
           | [] => ([], None)
           | (n, sm) :: r =>
               match get_child n p with
               | Raise e => ((n, sm) :: r, Some e)
               | Ok q => match set_rec sm q with
                         | (sm', Some e) => ((n, sm') :: r, Some e)
                         | (sm', None) => let '(r', e) := loop r in ((n, sm') :: r', e)
                         end
               end
           end) l = set_loop l p) as E.
  { induction l as [|[n sm] l IH]; [reflexivity|]. cbn [set_loop]. destruct (get_child n p); [|reflexivity]. destruct (set_rec sm a) as [sm' [e|]]; [reflexivity|]. now rewrite IH. }
  cbn [set_rec]. now rewrite E.
Qed.

Lemma wf_inv : forall (c : mclass) p s, wf_model (M c p s) -> NoDup (keys s) /\ forall n sm, In (n, sm) s -> wf_model sm.
Proof. intros c p s H. inversion H; subst. auto. Qed.
Lemma keys_mapv : forall A B (f : A -> B) (l : list (string * A)), keys (map (fun nm => (fst nm, f (snd nm))) l) = keys l.
Proof. intros. unfold keys. rewrite map_map. reflexivity. Qed.
Lemma dget_mapv : forall A B (f : A -> B) n (l : list (string * A)), dget n (map (fun nm => (fst nm, f (snd nm))) l) = option_map f (dget n l).
Proof. intros A B f n l; induction l as [|[k a] l IH]; [reflexivity|]. simpl. destruct (String.eqb n k); [reflexivity|exact IH]. Qed.

Lemma get_rec_eq : forall (c : mclass) p s, NoDup (keys s) -> get_rec (M c p s) = Node p (map (fun nm => (fst nm, get_rec (snd nm))) s).
Proof. intros c p s H. cbn [get_rec]. rewrite dict_of_list_nodup; [reflexivity|]. rewrite map_map. exact H. Qed.
Lemma default_eq : forall (c : mclass) p s, NoDup (keys s) -> default_params (M c p s) = Node (cdefaults c) (map (fun nm => (fst nm, default_params (snd nm))) s).
Proof. intros c p s H. cbn [default_params]. rewrite dict_of_list_nodup; [reflexivity|]. rewrite map_map. exact H. Qed.

(** *** the error of [set_rec] is KeyError; the structure is kept *)
Lemma set_rec_err : forall (m : model) p, snd (set_rec m p) = None \/ snd (set_rec m p) = Some KeyError.
Proof.
  intro m; induction m as [c p0 s IH] using model_ind2. intro p. rewrite set_rec_eq.
  assert (snd (set_loop s p) = None \/ snd (set_loop s p) = Some KeyError) as H.
  { induction s as [|[n sm] s IHs]; [now left|]. cbn [set_loop]. unfold get_child, lookup_err. destruct (dget n (tchildren p)) as [q|]; [|now right].
    destruct (IH n sm (or_introl eq_refl) q) as [E|E]; destruct (set_rec sm q) as [sm' e]; simpl in E; subst e; [|now right].
    specialize (IHs (fun n' sm' Hin => IH n' sm' (or_intror Hin))). destruct (set_loop s p) as [r' e]. exact IHs. }
  destruct (set_loop s p) as [s' e]. exact H.
Qed.
Lemma ss_refl : forall m : model, same_structure m m.
Proof.
  intro m; induction m as [c p s IH] using model_ind2. constructor. induction s as [|[n sm] s IHs]; constructor.
  - split; [reflexivity|]. apply (IH n sm). now left.
  - apply IHs. intros n' sm' H. apply (IH n' sm'). now right.
Qed.
Lemma set_rec_structure : forall (m : model) p, same_structure m (fst (set_rec m p)).
Proof.
  intro m; induction m as [c p0 s IH] using model_ind2. intro p. rewrite set_rec_eq.
  assert (Forall2 (fun a b => fst a = fst b /\ same_structure (snd a) (snd b)) s (fst (set_loop s p))) as H.
  { assert (forall l : list (string * model), Forall2 (fun a b => fst a = fst b /\ same_structure (snd a) (snd b)) l l) as RF by (intro l; induction l; constructor; auto using ss_refl).
    induction s as [|[n sm] s IHs]; [constructor|]. cbn [set_loop]. unfold get_child, lookup_err. destruct (dget n (tchildren p)) as [q|]; [|apply RF].
    pose proof (IH n sm (or_introl eq_refl) q) as E. destruct (set_rec sm q) as [sm' e]. simpl in E. destruct e as [e|]; [constructor; [simpl; auto|apply RF]|].
    specialize (IHs (fun n' sm' Hin => IH n' sm' (or_intror Hin))). destruct (set_loop s p) as [r' e]. constructor; [simpl; auto|exact IHs]. }
  destruct (set_loop s p) as [s' e]. constructor. exact H.
Qed.

Lemma ss_keys : forall s s' : list (string * model), Forall2 (fun a b => fst a = fst b /\ same_structure (snd a) (snd b)) s s' -> keys s = keys s'.
Proof. intros s s' H. induction H as [|a b s s' [E _] H IH]; [reflexivity|]. unfold keys in *. simpl. now rewrite E, IH. Qed.
Lemma ss_dget : forall s s' : list (string * model), Forall2 (fun a b => fst a = fst b /\ same_structure (snd a) (snd b)) s s' -> forall n,
  match dget n s, dget n s' with Some a, Some b => same_structure a b | None, None => True | _, _ => False end.
Proof.
  intros s s' H n. induction H as [|[k a] [k' b] s s' [E Hs] H IH]; [exact I|]. simpl in *. subst k'. destruct (String.eqb n k); [exact Hs|exact IH].
Qed.
Lemma ss_walk : forall names (m m' : model), same_structure m m' ->
  match mwalk names m, mwalk names m' with Ok a, Ok b => same_structure a b | Raise KeyError, Raise KeyError => True | _, _ => False end.
Proof.
  intros names; induction names as [|n names IH]; intros m m' H; [exact H|]. inversion H as [c p p' s s' F]; subst. cbn [mwalk msubs]. pose proof (ss_dget _ _ F n) as D.
  destruct (dget n s), (dget n s'); try contradiction; [|exact I]. now apply IH.
Qed.
Lemma ss_wf : forall m m' : model, same_structure m m' -> wf_model m -> wf_model m'.
Proof.
  intro m; induction m as [c p s IH] using model_ind2. intros m' H W. inversion H as [? ? p' ? s' F]; subst. apply wf_inv in W. destruct W as [ND W]. constructor.
  - now rewrite <- (ss_keys _ _ F).
  - clear ND H. induction F as [|[k a] [k' b] s s' [E Hs] F IHF]; intros n sm Hin; [destruct Hin|]. destruct Hin as [X|Hin].
    + injection X as <- <-. apply (IH k a (or_introl eq_refl) b Hs). apply (W k a). now left.
    + apply (IHF (fun n0 sm0 H0 => IH n0 sm0 (or_intror H0)) (fun n0 sm0 H0 => W n0 sm0 (or_intror H0)) n sm Hin).
Qed.

(** *** success and its effect *)
Lemma covers_sub : forall (c : mclass) p0 s p n sm q, covers (M c p0 s) p -> dget n s = Some sm -> dget n (tchildren p) = Some q -> covers sm q.
Proof.
  intros c p0 s p n sm q H Hs Hq names s0 E. destruct (H (n :: names) s0) as [q0 E0].
  - simpl. now rewrite Hs.
  - simpl in E0. unfold get_child, lookup_err in E0. rewrite Hq in E0. simpl in E0. eauto.
Qed.
Lemma covers_child : forall (c : mclass) p0 s p n sm, covers (M c p0 s) p -> dget n s = Some sm -> exists q, dget n (tchildren p) = Some q.
Proof.
  intros c p0 s p n sm H Hs. destruct (H [n] sm) as [q E]; [simpl; now rewrite Hs|]. simpl in E. unfold get_child, lookup_err in E. destruct (dget n (tchildren p)); [eauto|discriminate].
Qed.
Lemma covers_intro : forall (c : mclass) p0 s p, (forall n sm, dget n s = Some sm -> exists q, dget n (tchildren p) = Some q /\ covers sm q) -> covers (M c p0 s) p.
Proof.
  intros c p0 s p H [|n names] s0 E; [exists p; reflexivity|]. cbn [mwalk msubs] in E. destruct (dget n s) as [sm|] eqn:Es; [|discriminate]. destruct (H n sm Es) as (q & Eq & Hc).
  destruct (Hc names s0 E) as [q0 E0]. exists q0. cbn [walk]. unfold get_child, lookup_err. rewrite Eq. exact E0.
Qed.

Lemma set_rec_ok : forall (m : model) p, wf_model m -> (snd (set_rec m p) = None <-> covers m p) /\
  (snd (set_rec m p) = None -> forall names s', mwalk names (fst (set_rec m p)) = Ok s' -> exists q, walk names p = Ok q /\ mparams s' = tdata q).
Proof.
  intro m; induction m as [c p0 s IH] using model_ind2. intros p W. apply wf_inv in W. destruct W as [ND W]. rewrite set_rec_eq.
  assert ((snd (set_loop s p) = None <-> forall n sm, dget n s = Some sm -> exists q, dget n (tchildren p) = Some q /\ covers sm q) /\
    (snd (set_loop s p) = None -> forall n sm', dget n (fst (set_loop s p)) = Some sm' -> exists sm q, dget n s = Some sm /\ dget n (tchildren p) = Some q /\ snd (set_rec sm q) = None /\ sm' = fst (set_rec sm q))) as [L1 L2].
  { clear c p0. induction s as [|[n sm] s IHs].
    - simpl. split; [split; [discriminate|auto]|discriminate].
    - simpl in ND. apply NoDup_cons_iff in ND. destruct ND as [Hn ND].
      destruct (IHs (fun n' sm' H => IH n' sm' (or_intror H)) ND (fun n' sm' H => W n' sm' (or_intror H))) as [I1 I2]. clear IHs.
      assert (forall k v, dget k s = Some v -> k <> n) as Hne.
      { intros k v Hk ->. apply Hn. apply dget_some_iff. eauto. }
      cbn [set_loop]. unfold get_child, lookup_err. destruct (dget n (tchildren p)) as [q|] eqn:Eq.
      2:{ split; [|discriminate]. split; [discriminate|]. intro H. destruct (H n sm) as (q & E & _); [simpl; now rewrite String.eqb_refl|congruence]. }
      destruct (IH n sm (or_introl eq_refl) q (W n sm (or_introl eq_refl))) as [J1 J2]. destruct (set_rec sm q) as [sm' e] eqn:ES. simpl in J1, J2.
      destruct e as [e|].
      + split; [|discriminate]. split; [discriminate|]. intro H. destruct (H n sm) as (q' & E & Hc); [simpl; now rewrite String.eqb_refl|]. rewrite Eq in E. injection E as <-. apply J1 in Hc. discriminate.
      + destruct (set_loop s p) as [r' e] eqn:EL. simpl in I1, I2 |- *. split.
        * rewrite I1. split.
          -- intros H k v. destruct (String.eqb_spec k n) as [->|Hk]; [|apply H]. intro E. injection E as <-. exists q. split; [assumption|]. now apply J1.
          -- intros H k v Hk. apply H. destruct (String.eqb_spec k n) as [->|]; [|assumption]. exfalso. now apply (Hne n v).
        * intros He k v. destruct (String.eqb_spec k n) as [->|Hk].
          -- intro E. injection E as <-. exists sm, q. rewrite ES. auto.
          -- intro E. apply (I2 He k v E). }
  destruct (set_loop s p) as [s' e] eqn:EL. simpl in L1, L2 |- *. split.
  - rewrite L1. split; [apply covers_intro|]. intros H n sm Hs. destruct (covers_child _ _ _ _ _ _ H Hs) as [q Eq]. exists q. split; [assumption|]. now apply (covers_sub c p0 s p n).
  - intros He [|n names] s0 E.
    + simpl in E. injection E as <-. exists p. auto.
    + cbn [mwalk msubs] in E. destruct (dget n s') as [sm'|] eqn:Es; [|discriminate]. destruct (L2 He n sm' Es) as (sm & q & E1 & E2 & E3 & ->).
      destruct (IH n sm (dget_in _ _ _ _ E1) q (W n sm (dget_in _ _ _ _ E1))) as [_ J]. destruct (J E3 names s0 E) as (q0 & E0 & Ep). exists q0. split; [|assumption].
      cbn [walk]. unfold get_child, lookup_err. now rewrite E2.
Qed.

(** *** after a failure *)
Lemma set_rec_mixed : forall (m : model) p names s', mwalk names (fst (set_rec m p)) = Ok s' ->
  exists s, mwalk names m = Ok s /\ (mparams s' = mparams s \/ exists q, walk names p = Ok q /\ mparams s' = tdata q).
Proof.
  intro m; induction m as [c p0 s IH] using model_ind2. intros p names s0. rewrite set_rec_eq.
  assert (forall n sm', dget n (fst (set_loop s p)) = Some sm' -> exists sm, dget n s = Some sm /\ (sm' = sm \/ exists q, dget n (tchildren p) = Some q /\ sm' = fst (set_rec sm q))) as L.
  { clear IH. induction s as [|[n sm] s IHs]; intros k sm'; [discriminate|]. cbn [set_loop]. unfold get_child, lookup_err. destruct (dget n (tchildren p)) as [q|] eqn:Eq; [|intro E; exists sm'; auto].
    destruct (set_rec sm q) as [sm1 e] eqn:ES. assert (forall (b : bool) X (a : X), a = a) as _ by auto.
    destruct e as [e|].
    - simpl. destruct (String.eqb_spec k n) as [->|Hk]; [|intro E; exists sm'; auto]. intro E. injection E as <-. exists sm. split; [reflexivity|]. right. exists q. rewrite ES. auto.
    - destruct (set_loop s p) as [r' e']. simpl. destruct (String.eqb_spec k n) as [->|Hk]; [|apply IHs]. intro E. injection E as <-. exists sm. split; [reflexivity|]. right. exists q. rewrite ES. auto. }
  destruct (set_loop s p) as [s' e]. simpl in L |- *. destruct names as [|n names].
  - intro E. injection E as <-. exists (M c p0 s). split; [reflexivity|]. right. exists p. auto.
  - cbn [mwalk msubs]. destruct (dget n s') as [sm'|] eqn:Es; [|discriminate]. intro E. destruct (L n sm' Es) as (sm & E1 & [->|(q & E2 & ->)]).
    + exists s0. rewrite E1. auto.
    + destruct (IH n sm (dget_in _ _ _ _ E1) q names s0 E) as (s1 & E3 & HH). exists s1. rewrite E1. split; [assumption|]. destruct HH as [HH|(q0 & Ew & HH)]; [now left|]. right. exists q0. split; [|assumption].
      cbn [walk]. unfold get_child, lookup_err. now rewrite E2.
Qed.

(** *** reading back *)
Lemma walk_get_rec : forall names (m : model), wf_model m -> walk names (get_rec m) = fmap get_rec (mwalk names m).
Proof.
  intros names; induction names as [|n names IH]; intros [c p s] W; [reflexivity|]. apply wf_inv in W. destruct W as [ND W]. rewrite get_rec_eq by assumption. cbn [walk mwalk msubs].
  unfold get_child, lookup_err, tchildren. rewrite dget_mapv. destruct (dget n s) as [sm|] eqn:E; [|reflexivity]. simpl. apply IH. apply (W n sm). now apply dget_in.
Qed.
Lemma tdata_get_rec : forall m : model, tdata (get_rec m) = mparams m.
Proof. intros [c p s]. reflexivity. Qed.
Lemma set_get_id : forall m : model, wf_model m -> set_rec m (get_rec m) = (m, None).
Proof.
  intro m; induction m as [c p s IH] using model_ind2. intro W. apply wf_inv in W. destruct W as [ND W]. rewrite set_rec_eq, get_rec_eq by assumption.
  assert (forall l, incl l s -> NoDup (keys l) -> set_loop l (Node p (map (fun nm => (fst nm, get_rec (snd nm))) s)) = (l, None)) as H.
  { intros l; induction l as [|[n sm] l IHl]; intros Hi NDl; [reflexivity|]. cbn [set_loop]. unfold get_child, lookup_err, tchildren. rewrite dget_mapv.
    assert (In (n, sm) s) as Hin by (apply Hi; now left). rewrite (in_dget _ _ _ _ ND Hin). simpl. rewrite (IH n sm Hin (W n sm Hin)).
    simpl in NDl. apply NoDup_cons_iff in NDl. rewrite IHl; [reflexivity|intros x Hx; apply Hi; now right|tauto]. }
  rewrite (H s (incl_refl _) ND). reflexivity.
Qed.
(** the same structure and the same parameter tree give back the model itself *)
Lemma set_restore : forall m m' : model, wf_model m -> same_structure m m' -> set_rec m' (get_rec m) = (m, None).
Proof.
  intro m; induction m as [c p s IH] using model_ind2. intros m' W H. inversion H as [? ? p' ? s' F]; subst. apply wf_inv in W. destruct W as [ND W]. rewrite set_rec_eq, get_rec_eq by assumption.
  assert (forall l l', incl l s -> NoDup (keys l) -> Forall2 (fun a b => fst a = fst b /\ same_structure (snd a) (snd b)) l l' ->
    set_loop l' (Node p (map (fun nm => (fst nm, get_rec (snd nm))) s)) = (l, None)) as G.
  { intros l; induction l as [|[n sm] l IHl]; intros l' Hi NDl F'; inversion F' as [|? [n' sm'] ? l2 [E1 E2] F2]; subst; [reflexivity|]. simpl in E1, E2. subst n'. cbn [set_loop]. unfold get_child, lookup_err, tchildren. rewrite dget_mapv.
    assert (In (n, sm) s) as Hin by (apply Hi; now left). rewrite (in_dget _ _ _ _ ND Hin). simpl. rewrite (IH n sm Hin sm' (W n sm Hin) E2).
    simpl in NDl. apply NoDup_cons_iff in NDl. rewrite (IHl l2); [reflexivity|intros x Hx; apply Hi; now right|tauto|assumption]. }
  rewrite (G s s' (incl_refl _) ND F). reflexivity.
Qed.

(** *** only the places of the model matter *)
Lemma set_rec_ext : forall (m : model) p p', wf_model m -> (forall names s, mwalk names m = Ok s -> fmap tdata (walk names p) = fmap tdata (walk names p')) -> set_rec m p = set_rec m p'.
Proof.
  intro m; induction m as [c p0 s IH] using model_ind2. intros p p' W H. apply wf_inv in W. destruct W as [ND W]. rewrite !set_rec_eq.
  assert (tdata p = tdata p') as -> by (specialize (H [] _ eq_refl); simpl in H; now injection H).
  assert (set_loop s p = set_loop s p') as ->; [|reflexivity].
  assert (forall n sm, In (n, sm) s -> match dget n (tchildren p), dget n (tchildren p') with Some q, Some q' => set_rec sm q = set_rec sm q' | None, None => True | _, _ => False end) as L.
  { intros n sm Hin. pose proof (in_dget _ _ _ _ ND Hin) as Eg. pose proof (H [n] sm) as H1. cbn [mwalk msubs] in H1. rewrite Eg in H1. specialize (H1 eq_refl). cbn [walk] in H1. unfold get_child, lookup_err in H1.
    destruct (dget n (tchildren p)) as [q|] eqn:E1, (dget n (tchildren p')) as [q'|] eqn:E2; try discriminate; [|exact I].
    apply (IH n sm Hin); [now apply (W n)|]. intros names s0 E. specialize (H (n :: names) s0). cbn [mwalk msubs] in H. rewrite Eg in H. specialize (H E). cbn [walk] in H. unfold get_child, lookup_err in H. now rewrite E1, E2 in H. }
  clear IH W ND H. induction s as [|[n sm] s IHs]; [reflexivity|]. cbn [set_loop]. unfold get_child, lookup_err. pose proof (L n sm (or_introl eq_refl)) as Ln.
  destruct (dget n (tchildren p)), (dget n (tchildren p')); try contradiction; [|reflexivity]. rewrite Ln. destruct (set_rec sm t0) as [sm' [e|]]; [reflexivity|]. rewrite IHs; [reflexivity|]. intros n' sm0 Hin. apply L. now right.
Qed.

(** *** default parameters *)
Lemma walk_default : forall names (m : model), wf_model m -> walk names (default_params m) = fmap default_params (mwalk names m).
Proof.
  intros names; induction names as [|n names IH]; intros [c p s] W; [reflexivity|]. apply wf_inv in W. destruct W as [ND W]. rewrite default_eq by assumption. cbn [walk mwalk msubs].
  unfold get_child, lookup_err, tchildren. rewrite dget_mapv. destruct (dget n s) as [sm|] eqn:E; [|reflexivity]. simpl. apply IH. apply (W n sm). now apply dget_in.
Qed.
Lemma tdata_default : forall m : model, tdata (default_params m) = cdefaults (mcls m).
Proof. intros [c p s]. reflexivity. Qed.
Lemma default_ss : forall m m' : model, same_structure m m' -> default_params m = default_params m'.
Proof.
  intro m; induction m as [c p s IH] using model_ind2. intros m' H. inversion H as [? ? p' ? s' F]; subst. cbn [default_params]. f_equal. f_equal.
  clear H. induction F as [|[k a] [k' b] s s' [E Hs] F IHF]; [reflexivity|]. simpl in *. subst k'. rewrite (IH k a (or_introl eq_refl) b Hs). f_equal. apply IHF. intros n sm Hin. apply (IH n sm). now right.
Qed.
Lemma init_default : forall m : model, wf_model m -> exists m', init_params m None = Ok m' /\ same_structure m m' /\ get_rec m' = default_params m.
Proof.
  intros m W. unfold init_params. destruct (set_rec_ok m (default_params m) W) as [H1 H2]. pose proof (set_rec_structure m (default_params m)) as HS.
  assert (covers m (default_params m)) as HC by (intros names s E; rewrite walk_default, E by assumption; simpl; eauto).
  apply H1 in HC. specialize (H2 HC). destruct (set_rec m (default_params m)) as [m' e]. simpl in *. subst e. exists m'. split; [reflexivity|]. split; [assumption|].
  assert (forall m m' : model, wf_model m -> same_structure m m' -> (forall names s', mwalk names m' = Ok s' -> exists q, walk names (default_params m) = Ok q /\ mparams s' = tdata q) -> get_rec m' = default_params m) as G; [|now apply G].
  clear. intro m; induction m as [c p s IH] using model_ind2. intros m' W H Hp. inversion H as [? ? p' ? s' F]; subst. apply wf_inv in W. destruct W as [ND W].
  rewrite default_eq in Hp |- * by assumption. rewrite get_rec_eq by (now rewrite <- (ss_keys _ _ F)).
  destruct (Hp [] _ eq_refl) as (q & E & Eq). simpl in E. injection E as <-. simpl in Eq. subst p'. f_equal.
  assert (forall n sm', dget n s' = Some sm' -> forall names s0, mwalk names sm' = Ok s0 -> exists q sm, dget n s = Some sm /\ walk names (default_params sm) = Ok q /\ mparams s0 = tdata q) as Hsub.
  { intros n sm' E names s0 E0. destruct (Hp (n :: names) s0) as (q & Ew & Eq).
    - cbn [mwalk msubs]. now rewrite E.
    - cbn [walk] in Ew. unfold get_child, lookup_err, tchildren in Ew. rewrite dget_mapv in Ew. destruct (dget n s) as [sm|]; [|discriminate]. simpl in Ew. exists q, sm. auto. }
  clear Hp. assert (forall l l', incl l s -> incl l' s' -> Forall2 (fun a b => fst a = fst b /\ same_structure (snd a) (snd b)) l l' ->
     map (fun nm => (fst nm, get_rec (snd nm))) l' = map (fun nm => (fst nm, default_params (snd nm))) l) as G; [|apply G; auto using incl_refl].
  assert (NoDup (keys s')) as ND' by (now rewrite <- (ss_keys _ _ F)).
  intros l; induction l as [|[n sm] l IHl]; intros l' Hi Hi' F'; inversion F' as [|? [n' sm'] ? l2 [E1 E2] F2]; subst; [reflexivity|]. simpl in E1, E2. subst n'. simpl.
  assert (In (n, sm) s) as Hin by (apply Hi; now left). assert (In (n, sm') s') as Hin' by (apply Hi'; now left).
  rewrite (IH n sm Hin sm' (W n sm Hin) E2).
  - f_equal. apply IHl; [intros x Hx; apply Hi; now right|intros x Hx; apply Hi'; now right|assumption].
  - intros names s0 E0. destruct (Hsub n sm' (in_dget _ _ _ _ ND' Hin') names s0 E0) as (q & sm2 & Es & Ew & Eq). rewrite (in_dget _ _ _ _ ND Hin) in Es. injection Es as <-. eauto.
Qed.
End P.
