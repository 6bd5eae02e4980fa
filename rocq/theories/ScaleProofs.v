(** Proofs about set_scales. *)
From Verif Require Import Base RBase TreeModel UtilsModel UtilsProofs UtilsProofs2 CollocModel MeshModel OcpModel OcpProofs NlpModel BoundModel BoundSpec BoundProofs ScaleModel ScaleSpec.

Definition five : list string := implicit_inputs ++ ["global"].

Lemma svname_inj5 : forall g g' n n', In g five -> In g' five -> svname g n = svname g' n' -> g = g' /\ n = n'.
Proof.
  unfold five, implicit_inputs, svname. intros g g' n n' H H' E. simpl in H, H'.
  destruct H as [<-|[<-|[<-|[<-|[<-|[]]]]]]; destruct H' as [<-|[<-|[<-|[<-|[<-|[]]]]]]; simpl in E; try discriminate; split; try reflexivity; congruence.
Qed.

Lemma fill_len : forall idx v x, List.length (fill idx v x) = List.length x.
Proof. intros idx; induction idx as [|i idx IH]; intros v x; [reflexivity|]. unfold fill in *. simpl. rewrite IH. apply upd_length. Qed.
Lemma fill_nth : forall idx v x k, (k < List.length x)%nat -> nth k (fill idx v x) 0 = if in_dec Nat.eq_dec k idx then v else nth k x 0.
Proof.
  intros idx; induction idx as [|i idx IH]; intros v x k Hk; [reflexivity|]. change (fill (i :: idx) v x) with (fill idx v (upd i v x)).
  rewrite IH by (now rewrite upd_length). destruct (in_dec Nat.eq_dec k idx) as [H|H].
  - destruct (in_dec Nat.eq_dec k (i :: idx)) as [H'|H']; [reflexivity|exfalso; apply H'; now right].
  - rewrite upd_nth. destruct (Nat.eqb_spec k i) as [->|Hne].
    + destruct (in_dec Nat.eq_dec i (i :: idx)) as [H'|H']; [|exfalso; apply H'; now left]. apply Nat.ltb_lt in Hk. now rewrite Hk.
    + destruct (in_dec Nat.eq_dec k (i :: idx)) as [[H'|H']|H']; [congruence|contradiction|reflexivity].
Qed.

Lemma in_index_all : forall op g n t k g' n' idx, dvo_ok op -> In g five -> In g' five -> slot op g n t k -> index_all op g' n' = Ok idx ->
  (In k idx <-> (g' = g /\ n' = n)).
Proof.
  intros op g n t k g' n' idx Hok Hg5 Hg5' Hsl E. pose proof Hsl as [Ht _]. unfold index_all in E.
  destruct (slot_cases op g n t k Hsl) as [(-> & i & Ei & Hi & ->)|(Hg & i & Ei & Hi & ->)].
  - destruct (String.eqb_spec g' "global") as [->|Hg'].
    + destruct (enum_get n' (gnames op)) as [j|] eqn:Ej; [|discriminate]. simpl in E. injection E as <-. apply enum_ok in Ej. split.
      * intros [H|[]]. assert (j = i) by lia. subst j. apply index_of_lt in Ei, Ej. destruct Ei as [_ Ei], Ej as [_ Ej]. split; congruence.
      * intros [_ ->]. left. congruence.
    + destruct (enum_get _ _) as [j|] eqn:Ej; [|discriminate]. simpl in E. injection E as <-. apply enum_ok, index_of_lt in Ej. rewrite stage_var_names_length in Ej. destruct Ej as [Ej _].
      split; [|intros [? _]; contradiction]. intro Hin. exfalso. apply in_map_iff in Hin. destruct Hin as (s0 & Es & Hs0). apply in_seq in Hs0.
      unfold num_all_stage_var in Es. assert ((s0 + 1) * num_var_stage op <= num_stages op * num_var_stage op)%nat by (apply Nat.mul_le_mono_r; lia). lia.
  - destruct (String.eqb_spec g' "global") as [->|Hg'].
    + destruct (enum_get n' (gnames op)) as [j|] eqn:Ej; [|discriminate]. simpl in E. injection E as <-. split; [|intros [? _]; congruence]. intros [H|[]]. exfalso.
      unfold num_all_stage_var in H. assert ((t + 1) * num_var_stage op <= num_stages op * num_var_stage op)%nat by (apply Nat.mul_le_mono_r; lia). lia.
    + destruct (enum_get _ _) as [j|] eqn:Ej; [|discriminate]. simpl in E. injection E as <-. apply enum_ok in Ej. pose proof (index_of_lt _ _ _ Ej) as [Hj Ej2]. rewrite stage_var_names_length in Hj.
      split.
      * intro Hin. apply in_map_iff in Hin. destruct Hin as (s0 & Es & Hs0). destruct (mixed_radix (num_var_stage op) j i s0 t Hj Hi Es) as [-> _].
        apply index_of_lt in Ei. destruct Ei as [_ Ei]. rewrite Ei in Ej2. injection Ej2 as Ej2. destruct (svname_inj5 g g' n n' Hg5 Hg5' Ej2). split; congruence.
      * intros [-> ->]. rewrite Ei in Ej. injection Ej as <-. apply in_map_iff. exists t. split; [reflexivity|]. apply in_seq. lia.
Qed.

(** names of a group, with the globals *)
Definition names5 (op : dvo) (g : string) : list string := if String.eqb g "global" then gnames op else gnames_of op g.

Definition stepF (c : scale_config) (F : string -> string -> R) : string -> string -> R :=
  fun g n => if (String.eqb (sc_g c) g && String.eqb (sc_n c) n)%bool then sc_v c else F g n.
Definition foldF (scs : list scale_config) (F : string -> string -> R) := fold_left (fun F c => stepF c F) scs F.

Lemma foldF_last : forall scs F g n, foldF scs F g n = if existsb (fun c => String.eqb (sc_g c) g && String.eqb (sc_n c) n)%bool scs then scale_for scs g n else F g n.
Proof.
  intros scs; induction scs as [|c scs IH]; intros F g n; [reflexivity|]. change (foldF (c :: scs) F g n) with (foldF scs (stepF c F) g n). rewrite IH. simpl.
  destruct (existsb _ scs) eqn:E; [now rewrite orb_true_r|]. unfold stepF. rewrite orb_false_r. destruct (_ && _)%bool; reflexivity.
Qed.
Lemma foldF_one : forall scs g n, foldF scs (fun _ _ => 1) g n = scale_for scs g n.
Proof.
  intros scs g n. rewrite foldF_last. destruct (existsb _ scs) eqn:E; [reflexivity|]. destruct scs as [|c scs]; [reflexivity|]. simpl in *. apply orb_false_iff in E. destruct E as [-> ->]. reflexivity.
Qed.

Record sinv (op : dvo) (F : string -> string -> R) (vs : dict (list R)) (ds : list R) : Prop := {
  si_keys : keys vs = five;
  si_vs : forall g, In g five -> List.length (vs_get g vs) = List.length (names5 op g) /\ forall c n, nth_error (names5 op g) c = Some n -> nth c (vs_get g vs) 0 = F g n;
  si_len : List.length ds = num_dec op;
  si_ds : forall g n t k, In g five -> slot op g n t k -> nth k ds 0 = F g n;
}.

Lemma group_names_ok : forall op g, dvo_ok op -> sgroups op = implicit_inputs -> In g implicit_inputs -> group_names op g = Ok (gnames_of op g).
Proof. intros op g Hok HG Hg. rewrite <- HG in Hg. destruct (ok_groups op Hok g Hg) as [l E]. unfold group_names, gnames_of. now rewrite E. Qed.

Lemma five_cases : forall g, In g five -> g = "global" \/ (g <> "global" /\ In g implicit_inputs).
Proof. intros g H. unfold five in H. apply in_app_or in H. destruct (String.eqb_spec g "global"); [now left|right]. split; [assumption|]. destruct H as [H|[H|[]]]; [assumption|congruence]. Qed.

Lemma index_in_group_ok : forall op g n i, dvo_ok op -> sgroups op = implicit_inputs -> In g five -> index_in_group op g n = Ok i -> index_of n (names5 op g) = Some i.
Proof.
  intros op g n i Hok HG Hg H. unfold index_in_group, names5 in *. destruct (five_cases g Hg) as [->|[Hne Hi]].
  - rewrite String.eqb_refl in *. now apply enum_ok.
  - destruct (String.eqb_spec g "global"); [contradiction|]. rewrite (group_names_ok op g Hok HG Hi) in H. simpl in H. destruct (index_of n (gnames_of op g)); inversion H; reflexivity.
Qed.

Lemma vs_get_dset : forall g g' v vs, vs_get g (dset g' v vs) = if String.eqb g' g then v else vs_get g vs.
Proof.
  intros. unfold vs_get. destruct (String.eqb_spec g' g) as [->|Hne]; [now rewrite dget_dset_same|]. now rewrite dget_dset_other.
Qed.

Lemma names5_nodup : forall op g, dvo_ok op -> sgroups op = implicit_inputs -> In g five -> NoDup (names5 op g).
Proof.
  intros op g Hok HG Hg. unfold names5. destruct (five_cases g Hg) as [->|[Hne Hi]]; [rewrite String.eqb_refl; apply Hok|].
  destruct (String.eqb_spec g "global") as [|Hgx]; [contradiction|]. apply NoDup_nth_error. intros i j Hi' E.
  destruct (nth_error (gnames_of op g) i) as [n|] eqn:En; [|apply nth_error_None in En; lia]. symmetry in E.
  apply (In_nth_error) in Hi. destruct Hi as [k Hk]. rewrite <- HG in Hk.
  pose proof (index_of_svname op k g i n Hok Hk En) as A. pose proof (index_of_svname op k g j n Hok Hk E) as B. rewrite A in B. injection B as B. lia.
Qed.

Lemma apply_ok : forall o scs F vs ds vs' ds', dvo_ok (oc_op o) -> sgroups (oc_op o) = implicit_inputs -> sinv (oc_op o) F vs ds ->
  apply_scales o scs vs ds = ((vs', ds'), Ok tt) -> sinv (oc_op o) (foldF scs F) vs' ds'.
Proof.
  intros o scs; induction scs as [|c scs IH]; intros F vs ds vs' ds' Hok HG HI H; simpl in H; [inversion H; subst; assumption|].
  destruct (dget (sc_g c) vs) as [v|] eqn:Ev; [|discriminate]. destruct (index_in_group _ _ _) as [i|] eqn:Ei; [|discriminate].
  destruct (index_all _ _ _) as [idx|] eqn:Ex; [|discriminate].
  apply (IH (stepF c F)) in H; auto. destruct HI as [K1 K2 K3 K4].
  assert (In (sc_g c) five) as H5 by (rewrite <- K1; apply dget_some_iff; eauto).
  pose proof (index_in_group_ok _ _ _ _ Hok HG H5 Ei) as Ei'. constructor.
  - rewrite keys_dset_in; [assumption|]. now rewrite K1.
  - intros g Hg. rewrite vs_get_dset. destruct (K2 g Hg) as [L N]. unfold stepF. destruct (String.eqb_spec (sc_g c) g) as [E|Hne].
    + subst g. assert (vs_get (sc_g c) vs = v) as EV by (unfold vs_get; now rewrite Ev). rewrite EV in *. rewrite upd_length. split; [assumption|]. intros j n Hj. rewrite upd_nth.
      assert (j < List.length v)%nat as Hjl by (rewrite L; apply nth_error_Some; congruence).
      destruct (String.eqb_spec (sc_n c) n) as [En|Hn]; cbn [andb].
      * subst n. rewrite (index_of_nth _ (names5_nodup _ _ Hok HG H5) _ _ Hj) in Ei'. injection Ei' as <-. rewrite Nat.eqb_refl. apply Nat.ltb_lt in Hjl. now rewrite Hjl.
      * destruct (Nat.eqb_spec j i) as [->|]; [|now apply N]. apply index_of_lt in Ei'. destruct Ei'. congruence.
    + cbn [andb]. split; assumption.
  - now rewrite fill_len.
  - intros g n t k Hg Hsl. pose proof (slot_lt _ _ _ _ _ Hsl). rewrite fill_nth by lia. pose proof (in_index_all _ _ _ _ _ _ _ _ Hok Hg H5 Hsl Ex) as HIn. unfold stepF.
    destruct (in_dec Nat.eq_dec k idx) as [Hin|Hin].
    + apply HIn in Hin. destruct Hin as [-> ->]. now rewrite !String.eqb_refl.
    + destruct (String.eqb_spec (sc_g c) g) as [E1|]; [|now apply (K4 g n t k)]. destruct (String.eqb_spec (sc_n c) n) as [E2|]; [|now apply (K4 g n t k)].
      exfalso. apply Hin, HIn. auto.
Qed.

Lemma nth_ones : forall n k, (k < n)%nat -> nth k (ones n) 0 = 1.
Proof. intros. unfold ones. now apply nth_repeat_lt. Qed.

Lemma init_sinv : forall o, dvo_ok (oc_op o) -> sgroups (oc_op o) = implicit_inputs -> sinv (oc_op o) (fun _ _ => 1) (init_var_scales o) (ones (num_dec (oc_op o))).
Proof.
  intros o Hok HG. constructor.
  - reflexivity.
  - intros g Hg. assert (vs_get g (init_var_scales o) = ones (List.length (names5 (oc_op o) g))) as ->.
    { unfold init_var_scales, vs_get, names5. unfold five, implicit_inputs in Hg. simpl in Hg. destruct Hg as [<-|[<-|[<-|[<-|[<-|[]]]]]]; reflexivity. }
    split; [apply repeat_length|]. intros c n Hc. apply nth_ones. apply nth_error_Some. congruence.
  - apply repeat_length.
  - intros g n t k Hg Hsl. apply nth_ones. apply (slot_lt _ _ _ _ _ Hsl).
Qed.

Lemma set_scales_ok : forall o b s scs, dvo_ok (oc_op o) -> sgroups (oc_op o) = implicit_inputs -> snd (set_scales o b s scs) = Ok tt ->
  exists vs ds, sinv (oc_op o) (scale_for scs) vs ds /\
   fst (set_scales o b s scs) =
     let cont := concat (repeat (vs_get "states" vs) (num_intervals o * (nspi (oc_op o) - 1))) in
     {| s_dec := ds; s_pushed := ds;
        s_alg := if b then cont ++ concat (repeat (vs_get "con_outputs" vs ++ ones (oc_nres o)) (num_stages (oc_op o)))
                 else concat (repeat (vs_get "states" vs ++ vs_get "con_outputs" vs ++ ones (oc_nres o)) (num_stages (oc_op o)));
        s_cont := if b then s_cont s else cont |}.
Proof.
  intros o b s scs Hok HG H. unfold set_scales in *. destruct (apply_scales o scs _ _) as [[vs ds] [[]|e]] eqn:E; [|discriminate]. simpl.
  exists vs, ds. split; [|reflexivity]. pose proof (apply_ok o scs _ _ _ _ _ Hok HG (init_sinv o Hok HG) E) as [A B C D]. constructor; auto.
  - intros g Hg. destruct (B g Hg) as [L N]. split; [assumption|]. intros c n Hc. rewrite (N c n Hc). apply foldF_one.
  - intros g n t k Hg Hsl. rewrite (D g n t k Hg Hsl). apply foldF_one.
Qed.

(** position in repeated blocks *)
Lemma nth_blocks : forall (v : list R) n i c, (i < n)%nat -> (c < List.length v)%nat -> nth (i * List.length v + c) (concat (repeat v n)) 0 = nth c v 0.
Proof.
  intros v n; induction n as [|n IH]; intros i c Hi Hc; [lia|]. simpl. destruct i as [|i].
  - simpl. now rewrite app_nth1.
  - rewrite app_nth2 by (simpl; lia). rewrite <- (IH i c) by lia. f_equal. simpl. lia.
Qed.
Lemma len_blocks : forall (v : list R) n, List.length (concat (repeat v n)) = (n * List.length v)%nat.
Proof. intros v n; induction n; simpl; [reflexivity|]. rewrite app_length. lia. Qed.

(** when does it succeed *)
Lemma apply_iff : forall o scs vs ds, dvo_ok (oc_op o) -> sgroups (oc_op o) = implicit_inputs -> keys vs = five ->
  (snd (apply_scales o scs vs ds) = Ok tt <-> forall c, In c scs -> In (sc_g c) five /\ In (sc_n c) (names5 (oc_op o) (sc_g c))).
Proof.
  intros o scs; induction scs as [|c scs IH]; intros vs ds Hok HG HK; simpl; [split; [intros _ c []|reflexivity]|].
  destruct (dget (sc_g c) vs) as [v|] eqn:Ev.
  - assert (In (sc_g c) five) as H5 by (rewrite <- HK; apply dget_some_iff; eauto).
    assert (In (sc_n c) (names5 (oc_op o) (sc_g c)) -> exists i idx, index_in_group (oc_op o) (sc_g c) (sc_n c) = Ok i /\ index_all (oc_op o) (sc_g c) (sc_n c) = Ok idx) as HE.
    { intro Hin. unfold index_in_group, index_all, names5 in *. destruct (String.eqb_spec (sc_g c) "global") as [Eg|Hne].
      - destruct (index_of_in _ _ Hin) as [i Hi]. unfold enum_get. rewrite Hi. simpl. eauto.
      - destruct (five_cases _ H5) as [?|[_ Hi]]; [contradiction|]. rewrite (group_names_ok _ _ Hok HG Hi). simpl. destruct (index_of_in _ _ Hin) as [i Hii]. rewrite Hii.
        apply In_nth_error in Hi. destruct Hi as [k Hk]. rewrite <- HG in Hk. apply index_of_lt in Hii. destruct Hii as [_ Hii].
        unfold enum_get. rewrite (index_of_svname _ k _ i _ Hok Hk Hii). simpl. eauto. }
    destruct (index_in_group _ _ _) as [i|] eqn:Ei.
    + pose proof (index_in_group_ok _ _ _ _ Hok HG H5 Ei) as Ei'. assert (In (sc_n c) (names5 (oc_op o) (sc_g c))) as Hin by (apply index_of_lt in Ei'; destruct Ei'; eapply nth_error_In; eauto).
      destruct (HE Hin) as (i' & idx & _ & Ex). rewrite Ex. rewrite IH; auto; [|rewrite keys_dset_in; [assumption|now rewrite HK]].
      split; [intros H c' [<-|Hc']; [split; assumption|exact (H c' Hc')]|intros H c' Hc'; apply H; now right].
    + split; [discriminate|]. intro H. destruct (H c (or_introl eq_refl)) as [_ Hin]. destruct (HE Hin) as (? & ? & ? & _). congruence.
  - split; [discriminate|]. intro H. destruct (H c (or_introl eq_refl)) as [H5 _]. change (In (sc_g c) five) in H5. rewrite <- HK in H5. apply dget_some_iff in H5. destruct H5. congruence.
Qed.
