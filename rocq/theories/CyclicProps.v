(** C28: cyclic constraints. *)
From Verif Require Import Base RBase TreeModel UtilsModel UtilsProofs UtilsProofs2 CollocModel CollocProofs CollocProps MeshModel NlpModel NlpProofs2 OcpModel OcpProofs OcpProofs2 OcpSpec OcpProps
  BoundModel BoundSpec BoundProofs BoundProps CyclicModel CyclicSpec.

Lemma remove1_filter : forall a l, NoDup l -> remove1 a l = filter (fun b => negb (String.eqb b a)) l.
Proof.
  intros a l ND; induction ND as [|b r Hb Hr IH]; [reflexivity|]. simpl. rewrite (String.eqb_sym b a). destruct (String.eqb_spec a b) as [->|Hne]; simpl.
  - rewrite <- IH. clear - Hb. induction r as [|c r IH]; [reflexivity|]. simpl in *. destruct (String.eqb_spec b c) as [->|]; [tauto|]. f_equal. apply IH. tauto.
  - now rewrite IH.
Qed.
Lemma existsb_eqb : forall a l, existsb (String.eqb a) l = true <-> In a l.
Proof. intros a l. rewrite existsb_exists. split; [intros (x & H & E); apply String.eqb_eq in E; now subst|intro H; exists a; split; [assumption|apply String.eqb_refl]]. Qed.
Lemma filter_filter : forall A (f g : A -> bool) l, filter f (filter g l) = filter (fun a => g a && f a)%bool l.
Proof. intros A f g l; induction l as [|a l IH]; [reflexivity|]. simpl. destruct (g a); simpl; [destruct (f a)|]; now rewrite ?IH. Qed.

Lemma remove_all_spec : forall ncv cv, NoDup cv ->
  (forall r, remove_all ncv cv = Ok r <-> NoDup ncv /\ incl ncv cv /\ r = filter (fun a => negb (existsb (String.eqb a) ncv)) cv) /\
  (forall e, remove_all ncv cv = Raise e -> e = ValueError).
Proof.
  intros ncv; induction ncv as [|a ncv IH]; intros cv ND.
  - split; [|discriminate]. intro r. simpl. assert (filter (fun _ => true) cv = cv) as E by (clear; induction cv; simpl; congruence). rewrite E. split.
    + intro H. injection H as <-. split; [constructor|]. split; [intros ? []|reflexivity].
    + intros (_ & _ & ->). reflexivity.
  - cbn [remove_all]. destruct (existsb (String.eqb a) cv) eqn:Ex.
    + apply existsb_eqb in Ex. rewrite remove1_filter by assumption.
      assert (NoDup (filter (fun b => negb (String.eqb b a)) cv)) as ND' by now apply NoDup_filter.
      destruct (IH _ ND') as [I1 I2]. split; [|exact I2]. intro r. rewrite I1.
      assert (filter (fun x => negb (existsb (String.eqb x) ncv)) (filter (fun b => negb (String.eqb b a)) cv) = filter (fun x => negb (existsb (String.eqb x) (a :: ncv))) cv) as ->.
      { rewrite filter_filter. apply filter_ext. intro x. simpl. now rewrite negb_orb. }
      split.
      * intros (A & B & C). split; [|split; [|exact C]].
        -- constructor; [|assumption]. intro Hin. apply B, filter_In in Hin. destruct Hin as [_ Hin]. now rewrite String.eqb_refl in Hin.
        -- intros x [<-|Hx]; [assumption|]. apply B, filter_In in Hx. tauto.
      * intros (A & B & C). inversion A; subst. split; [assumption|]. split; [|reflexivity]. intros x Hx. apply filter_In. split; [apply B; now right|].
        apply negb_true_iff. destruct (String.eqb_spec x a); [subst; contradiction|reflexivity].
    + split; [|intros e H; now injection H as <-]. intro r. split; [discriminate|]. intros (_ & B & _). assert (In a cv) as H by (apply B; now left). apply existsb_eqb in H. congruence.
Qed.

Lemma full_names : forall st inp, flat_map (fun g => map (svname g) (match g with "states" => st | _ => inp end)) ["states"; "inputs"] = map full_name (map (pair "states") st ++ map (pair "inputs") inp).
Proof. intros. simpl. rewrite app_nil_r, map_app, !map_map. reflexivity. Qed.

Lemma full_nodup : forall roots tn tns n st inp con pts fixed o, built roots tn tns n st inp con pts fixed o -> 
  NoDup (map full_name (map (pair "states") st ++ map (pair "inputs") inp)) /\
  flat_map (fun g => map (svname g) (gnames_of (oc_op o) g)) ["states"; "inputs"] = map full_name (map (pair "states") st ++ map (pair "inputs") inp).
Proof.
  intros roots tn tns n st inp con pts fixed o Hb. destruct (built_ok _ _ _ _ _ _ _ _ _ _ Hb) as (K & _ & _ & _ & _ & G1 & G2 & _ & EF & G3 & G4 & _).
  assert (flat_map (fun g => map (svname g) (gnames_of (oc_op o) g)) ["states"; "inputs"] = map full_name (map (pair "states") st ++ map (pair "inputs") inp)) as E.
  { simpl. rewrite G1, G3, app_nil_r, map_app, !map_map. reflexivity. }
  split; [|exact E]. rewrite <- E. pose proof (ok_names _ (oo_dvo o K)) as ND. unfold stage_var_names in ND. rewrite (oo_sg o K) in ND. unfold implicit_inputs in ND.
  change (flat_map _ _) with (map (svname "states") (gnames_of (oc_op o) "states") ++ map (svname "inputs") (gnames_of (oc_op o) "inputs") ++ flat_map (fun g => map (svname g) (gnames_of (oc_op o) g)) ["states_dot"; "con_outputs"]) in ND.
  rewrite app_assoc in ND. simpl. rewrite app_nil_r. revert ND. generalize (map (svname "states") (gnames_of (oc_op o) "states") ++ map (svname "inputs") (gnames_of (oc_op o) "inputs")) as l.
  intros l. generalize (flat_map (fun g => map (svname g) (gnames_of (oc_op o) g)) ["states_dot"; "con_outputs"]) as m. clear. induction l as [|a l IH]; intros m ND; [constructor|].
  simpl in ND. inversion ND; subst. constructor; [|now apply (IH m)]. intro H. apply H1. apply in_or_app. now left.
Qed.

(** *** which variables are cyclic: accepted exactly when the exclusions are distinct existing states or inputs; a wrong one raises ValueError *)
Theorem C28_variables : forall roots tn tns n st inp con pts fixed o excl, built roots tn tns n st inp con pts fixed o ->
  (forall cv, build_cyclic_vars o excl = Ok cv <->
     NoDup excl /\ (forall e, In e excl -> exists gn, e = full_name gn /\ ((fst gn = "states" /\ In (snd gn) st) \/ (fst gn = "inputs" /\ In (snd gn) inp))) /\
     cv = map full_name (cyclic_pairs st inp excl)) /\
  (forall e, build_cyclic_vars o excl = Raise e -> e = ValueError).
Proof.
  intros roots tn tns n st inp con pts fixed o excl Hb. destruct (full_nodup _ _ _ _ _ _ _ _ _ _ Hb) as [ND E]. unfold build_cyclic_vars. rewrite E.
  destruct (remove_all_spec excl _ ND) as [A B]. split; [|exact B]. intro cv. rewrite A.
  assert (filter (fun a => negb (existsb (String.eqb a) excl)) (map full_name (map (pair "states") st ++ map (pair "inputs") inp)) = map full_name (cyclic_pairs st inp excl)) as ->.
  { unfold cyclic_pairs. generalize (map (pair "states") st ++ map (pair "inputs") inp) as l. induction l as [|[g nm] l IH]; [reflexivity|]. simpl. unfold full_name at 1. simpl.
    destruct (existsb _ excl); simpl; [assumption|]. f_equal. assumption. }
  split; intros (H1 & H2 & H3); (split; [assumption|]); (split; [|assumption]).
  - intros e He. apply H2, in_map_iff in He. destruct He as (gn & <- & He). exists gn. split; [reflexivity|]. apply in_app_or in He. destruct He as [He|He]; apply in_map_iff in He; destruct He as (nm & <- & He); simpl; auto.
  - intros e He. destruct (H2 e He) as ([g nm] & -> & Hgn). apply in_map. simpl in Hgn. apply in_or_app. destruct Hgn as [[-> Hgn]|[-> Hgn]]; [left|right]; apply in_map_iff; eauto.
Qed.
Print Assumptions C28_variables.

Lemma split_full_ok : forall g nm, no_char dot g = true -> no_char dot nm = true -> split_full_name (full_name (g, nm)) = Ok (g, nm).
Proof.
  intros g nm Hg Hn. unfold split_full_name, full_name. simpl. change (Base.split dot (g ++ String dot nm)%string) with (Base.split dot (String.append g (String dot nm))).
  rewrite split_append by assumption. now rewrite split_clean.
Qed.

(** positions of the cyclic variables at both ends *)
Lemma cyclic_idx : forall roots tn tns n st inp con pts fixed o g nm, built roots tn tns n st inp con pts fixed o -> 
  (g = "states" /\ In nm st) \/ (g = "inputs" /\ In nm inp) ->
  exists a b, index_at (oc_op o) g nm 0 = Ok a /\ index_at (oc_op o) g nm (-1) = Ok b /\ index_at (oc_op o) g nm (Z.of_nat (num_stages (oc_op o) - 1)) = Ok b /\
    (a < num_dec (oc_op o))%nat /\ (b < num_dec (oc_op o))%nat.
Proof.
  intros roots tn tns n st inp con pts fixed o g nm Hb Hv. destruct (built_ok _ _ _ _ _ _ _ _ _ _ Hb) as (K & _ & _ & _ & _ & G1 & G2 & _ & EF & G3 & G4 & _).
  pose proof (num_stages_pos (oc_op o)) as NS.
  assert (is_var (oc_op o) g nm /\ g <> "global") as [Hiv Hg].
  { unfold is_var. rewrite (oo_sg o K). destruct Hv as [[-> H]|[-> H]]; rewrite ?G1, ?G3; (split; [|discriminate]); simpl; auto. }
  destruct (index_at_var (oc_op o) g nm 0 Hg Hiv ltac:(lia)) as (i & E1 & Hi & Ea). destruct (index_at_var (oc_op o) g nm (num_stages (oc_op o) - 1) Hg Hiv ltac:(lia)) as (j & E2 & Hj & Eb).
  exists (i + 0 * num_var_stage (oc_op o))%nat, (j + (num_stages (oc_op o) - 1) * num_var_stage (oc_op o))%nat. split; [exact Ea|].
  assert (index_at (oc_op o) g nm (-1) = index_at (oc_op o) g nm (Z.of_nat (num_stages (oc_op o) - 1))) as ->.
  { unfold index_at. destruct (String.eqb g "global"); [reflexivity|]. f_equal. rewrite norm_stage_nat by lia. unfold norm_stage.
    destruct (Z.ltb_spec (Z.of_nat (num_stages (oc_op o)) - 1) (-1)); [lia|]. destruct (Z.ltb_spec (-1) (- Z.of_nat (num_stages (oc_op o)))); [lia|]. simpl. f_equal.
    assert ((-1) mod Z.of_nat (num_stages (oc_op o)) = Z.of_nat (num_stages (oc_op o)) - 1)%Z as -> by (symmetry; apply (Z.mod_unique_pos (-1) (Z.of_nat (num_stages (oc_op o))) (-1)); lia). lia. }
  split; [exact Eb|]. split; [exact Eb|]. split; eapply slot_lt; (split; [|eassumption]); lia.
Qed.

Lemma mapM_pairs : forall roots tn tns n st inp con pts fixed o P, built roots tn tns n st inp con pts fixed o -> 
  (forall g nm, In (g, nm) P -> ((g = "states" /\ In nm st) \/ (g = "inputs" /\ In nm inp)) /\ no_char dot nm = true) -> P <> [] ->
  exists L, cyclic_indices o (map full_name P) = Ok (map fst L, map snd L) /\ List.length L = List.length P /\
    forall k g nm, nth_error P k = Some (g, nm) -> exists a b, nth_error L k = Some (a, b) /\ index_at (oc_op o) g nm 0 = Ok a /\ index_at (oc_op o) g nm (Z.of_nat (num_stages (oc_op o) - 1)) = Ok b /\
      (a < num_dec (oc_op o))%nat /\ (b < num_dec (oc_op o))%nat.
Proof.
  intros roots tn tns n st inp con pts fixed o P Hb HP Hne.
  assert (exists L, mapM (fun s => bind (split_full_name s) (fun gn => bind (index_at (oc_op o) (fst gn) (snd gn) 0) (fun a => fmap (fun b => (a, b)) (index_at (oc_op o) (fst gn) (snd gn) (-1))))) (map full_name P) = Ok L /\ List.length L = List.length P /\
    forall k g nm, nth_error P k = Some (g, nm) -> exists a b, nth_error L k = Some (a, b) /\ index_at (oc_op o) g nm 0 = Ok a /\ index_at (oc_op o) g nm (Z.of_nat (num_stages (oc_op o) - 1)) = Ok b /\
      (a < num_dec (oc_op o))%nat /\ (b < num_dec (oc_op o))%nat) as (L & E & Len & HL).
  { clear Hne. induction P as [|[g nm] P IH].
    - exists []. split; [reflexivity|]. split; [reflexivity|]. intros [|k]; discriminate.
    - destruct IH as (L & E & Len & HL); [intros g' nm' Hin; apply HP; now right|]. destruct (HP g nm (or_introl eq_refl)) as [Hv Hd].
      destruct (cyclic_idx _ _ _ _ _ _ _ _ _ o g nm Hb Hv) as (a & b & E1 & E2 & E3 & La & Lb). exists ((a, b) :: L).
      split; [|split; [simpl; lia|intros [|k] g' nm' Hk; simpl in *; [injection Hk as <- <-; eauto 10|eauto]]].
      simpl map. cbn [mapM]. rewrite split_full_ok; [|destruct Hv as [[-> _]|[-> _]]; reflexivity|assumption]. cbn [bind fst snd]. rewrite E1, E2. cbn [bind fmap]. now rewrite E. }
  exists L. split; [|auto]. unfold cyclic_indices. rewrite E. cbn [bind]. destruct L; [|reflexivity]. destruct P; [congruence|discriminate].
Qed.

Lemma gather_ok : forall (x : list R) (l : list nat), (forall a, In a l -> (a < List.length x)%nat) -> mapM (array_get x) l = Ok (map (fun a => vget a x) l).
Proof.
  intros x l; induction l as [|a l IH]; intro H; [reflexivity|]. cbn [mapM]. unfold array_get at 1. rewrite (nth_error_nth' x 0) by (apply H; now left). rewrite IH by (intros; apply H; now right). reflexivity.
Qed.

Lemma in_pairs : forall st inp excl g nm, In (g, nm) (cyclic_pairs st inp excl) <-> ((g = "states" /\ In nm st) \/ (g = "inputs" /\ In nm inp)) /\ ~ In (full_name (g, nm)) excl.
Proof.
  intros. unfold cyclic_pairs. rewrite filter_In, in_app_iff, !in_map_iff. unfold full_name. simpl. rewrite negb_true_iff, <- not_true_iff_false, existsb_eqb. split.
  - intros [[(m & E & H)|(m & E & H)] H2]; inversion E; subst; auto.
  - intros [[[-> H]|[-> H]] H2]; (split; [|exact H2]); [left|right]; eauto.
Qed.

(** *** values: one constraint per cyclic variable, in order: its value at the first stage minus its value at the last stage *)
Theorem C28_values : forall roots tn tns n st inp con pts fixed o excl cv x, built roots tn tns n st inp con pts fixed o ->
  (forall nm, In nm st \/ In nm inp -> no_char dot nm = true) ->
  build_cyclic_vars o excl = Ok cv -> cyclic_pairs st inp excl <> [] -> List.length x = num_dec (oc_op o) ->
  exists cs, cyclic_constraint o cv x = Ok cs /\ List.length cs = List.length (cyclic_pairs st inp excl) /\
    (forall k g nm, nth_error (cyclic_pairs st inp excl) k = Some (g, nm) ->
       exists a b, value_at o x g nm 0 a /\ value_at o x g nm (num_stages (oc_op o) - 1) b /\ nth k cs 0 = a - b) /\
    ((forall k, nth k cs 0 = 0) <->
     (forall g nm a b, In (g, nm) (cyclic_pairs st inp excl) -> value_at o x g nm 0 a -> value_at o x g nm (num_stages (oc_op o) - 1) b -> a = b)).
Proof.
  intros roots tn tns n st inp con pts fixed o excl cv x Hb Hd HB Hne Lx.
  apply (C28_variables _ _ _ _ _ _ _ _ _ _ _ Hb) in HB. destruct HB as (_ & _ & ->). set (P := cyclic_pairs st inp excl) in *.
  destruct (mapM_pairs _ _ _ _ _ _ _ _ _ o P Hb) as (L & E & Len & HL); auto.
  { intros g nm Hin. apply in_pairs in Hin. destruct Hin as [Hin _]. split; [assumption|]. apply Hd. tauto. }
  assert (forall a b, In (a, b) L -> (a < List.length x)%nat /\ (b < List.length x)%nat) as HR.
  { intros a b Hin. apply In_nth_error in Hin. destruct Hin as [k Hk]. destruct (nth_error P k) as [[g nm]|] eqn:Ek.
    - destruct (HL k g nm Ek) as (a' & b' & E' & _ & _ & ? & ?). rewrite Hk in E'. injection E' as <- <-. lia.
    - apply nth_error_None in Ek. assert (k < List.length L)%nat by (apply nth_error_Some; congruence). lia. }
  exists (map (fun ab => vget (fst ab) x - vget (snd ab) x) L).
  assert (forall k g nm, nth_error P k = Some (g, nm) -> exists a b, value_at o x g nm 0 a /\ value_at o x g nm (num_stages (oc_op o) - 1) b /\ nth k (map (fun ab => vget (fst ab) x - vget (snd ab) x) L) 0 = a - b) as HV.
  { intros k g nm Hk. destruct (HL k g nm Hk) as (a & b & Ek & E1 & E2 & La & Lb). exists (vget a x), (vget b x). unfold value_at, get_var. rewrite E2. change (Z.of_nat 0) with 0%Z. rewrite E1. cbn [bind]. unfold array_get.
    rewrite !(nth_error_nth' x 0) by lia. split; [reflexivity|]. split; [reflexivity|].
    rewrite (nth_indep _ 0 (vget (fst (0%nat, 0%nat)) x - vget (snd (0%nat, 0%nat)) x)) by (rewrite map_length; apply nth_error_Some; congruence).
    rewrite (map_nth (fun ab => vget (fst ab) x - vget (snd ab) x)). now rewrite (nth_error_nth _ _ _ Ek). }
  split; [|split; [now rewrite map_length|split; [exact HV|]]].
  - unfold cyclic_constraint. rewrite E. cbn [bind fst snd].
    rewrite gather_ok; [cbn [bind]; rewrite gather_ok; [cbn [bind]; f_equal; unfold vsub|]|].
    + clear. induction L as [|[a b] L IH]; [reflexivity|]. simpl. now rewrite IH.
    + intros b Hin. apply in_map_iff in Hin. destruct Hin as ([a b'] & <- & Hin). apply HR in Hin. tauto.
    + intros b Hin. apply in_map_iff in Hin. destruct Hin as ([a b'] & <- & Hin). apply HR in Hin. tauto.
  - split.
    + intros H0 g nm a b Hin Ha Hbv. apply In_nth_error in Hin. destruct Hin as [k Hk]. destruct (HV k g nm Hk) as (a' & b' & Ha' & Hb' & Ed). rewrite H0 in Ed.
      unfold value_at in *. rewrite Ha in Ha'. rewrite Hbv in Hb'. injection Ha' as <-. injection Hb' as <-. lra.
    + intros H k. destruct (Nat.lt_ge_cases k (List.length P)) as [Hk|Hk].
      * destruct (nth_error P k) as [[g nm]|] eqn:Ek; [|apply nth_error_None in Ek; lia]. destruct (HV k g nm Ek) as (a & b & Ha & Hbv & ->). rewrite (H g nm a b); auto; [lra|]. eapply nth_error_In; eauto.
      * apply nth_overflow. rewrite map_length. lia.
Qed.
Print Assumptions C28_values.

(** *** the jacobian: values and structure describe exactly the matrix of partial derivatives *)
Theorem C28_jacobian : forall roots tn tns n st inp con pts fixed o excl cv, built roots tn tns n st inp con pts fixed o ->
  (forall nm, In nm st \/ In nm inp -> no_char dot nm = true) ->
  build_cyclic_vars o excl = Ok cv -> cyclic_pairs st inp excl <> [] ->
  exists rs cs vals f, cyclic_jacobianstructure o cv = Ok (rs, cs) /\
    (forall x, List.length x = num_dec (oc_op o) -> cyclic_constraint o cv x = Ok (f x) /\ cyclic_jacobian o cv x = Ok (vals x) /\ List.length (vals x) = List.length rs) /\
    List.length rs = List.length cs /\ Forall (fun r => (r < List.length cv)%nat) rs /\ Forall (fun q => (q < num_dec (oc_op o))%nat) cs /\
    is_jacobian (num_dec (oc_op o)) (List.length cv) f (fun x => tri rs cs (vals x)).
Proof.
  intros roots tn tns n st inp con pts fixed o excl cv Hb Hd HB Hne.
  apply (C28_variables _ _ _ _ _ _ _ _ _ _ _ Hb) in HB. destruct HB as (_ & _ & ->). set (P := cyclic_pairs st inp excl) in *.
  destruct (mapM_pairs _ _ _ _ _ _ _ _ _ o P Hb) as (L & E & Len & HL); auto.
  { intros g nm Hin. apply in_pairs in Hin. destruct Hin as [Hin _]. split; [assumption|]. apply Hd. tauto. }
  assert (forall a b, In (a, b) L -> (a < num_dec (oc_op o))%nat /\ (b < num_dec (oc_op o))%nat) as HR.
  { intros a b Hin. apply In_nth_error in Hin. destruct Hin as [k Hk]. destruct (nth_error P k) as [[g nm]|] eqn:Ek.
    - destruct (HL k g nm Ek) as (a' & b' & E' & _ & _ & ? & ?). rewrite Hk in E'. injection E' as <- <-. lia.
    - apply nth_error_None in Ek. assert (k < List.length L)%nat by (apply nth_error_Some; congruence). lia. }
  rewrite map_length. set (K := List.length P) in *.
  exists (seq 0 K ++ seq 0 K), (map fst L ++ map snd L), (fun _ => map (fun _ => 1) (map fst L) ++ map (fun _ => - (1)) (map snd L)), (fun x => map (fun ab => vget (fst ab) x - vget (snd ab) x) L).
  split. { unfold cyclic_jacobianstructure. rewrite E. cbn [bind fst snd]. rewrite map_length, Len. reflexivity. }
  split.
  { intros x Lx. split; [|split].
    - unfold cyclic_constraint. rewrite E. cbn [bind fst snd].
      rewrite gather_ok; [cbn [bind]; rewrite gather_ok; [cbn [bind]; f_equal; unfold vsub|]|].
      + clear. induction L as [|[a b] L IH]; [reflexivity|]. simpl. now rewrite IH.
      + intros b Hin. apply in_map_iff in Hin. destruct Hin as ([a b'] & <- & Hin). apply HR in Hin. simpl. lia.
      + intros b Hin. apply in_map_iff in Hin. destruct Hin as ([a b'] & <- & Hin). apply HR in Hin. simpl. lia.
    - unfold cyclic_jacobian. rewrite E. reflexivity.
    - rewrite !app_length, !map_length, !seq_length. lia. }
  split; [rewrite !app_length, !map_length, !seq_length; lia|].
  split. { apply Forall_app. split; apply Forall_forall; intros q Hq; apply in_seq in Hq; lia. }
  split. { apply Forall_app. split; apply Forall_forall; intros q Hq; apply in_map_iff in Hq; destruct Hq as ([a b] & <- & Hq); apply HR in Hq; simpl; tauto. }
  intros x i j Lx Hi Hj. rewrite tri_app by (rewrite ?map_length, ?seq_length; lia).
  set (dflt := (0%nat, 0%nat)).
  assert (L = map (fun k => nth k L dflt) (seq 0 K)) as EL by (rewrite <- Len; apply list_comp).
  assert (forall (F : nat * nat -> nat) (v : R), tri (seq 0 K) (map F L) (map (fun _ => v) (map F L)) i j = if Nat.eqb (F (nth i L dflt)) j then v else 0) as T.
  { intros F v. rewrite map_map. rewrite EL at 1 2. rewrite !map_map. rewrite <- (map_id (seq 0 K)) at 1. rewrite (tri_comp nat (fun k => k) (fun k => F (nth k L dflt)) (fun _ => v)).
    rewrite (rsum_single _ i).
    - now rewrite Nat.eqb_refl.
    - lia.
    - intros k Hki. destruct (Nat.eqb_spec k i); [contradiction|reflexivity]. }
  rewrite !T. eapply pderiv_ext_len.
  2: eapply pderiv_eq; [|apply pderiv_sub; [apply (pderiv_coord (fst (nth i L dflt)) j x); lia|apply (pderiv_coord (snd (nth i L dflt)) j x); lia]].
  - intros y Ly. unfold vget at 3. rewrite (nth_indep _ 0 (vget (fst dflt) y - vget (snd dflt) y)) by (rewrite map_length; lia).
    rewrite (map_nth (fun ab => vget (fst ab) y - vget (snd ab) y)). reflexivity.
  - destruct (Nat.eqb _ j), (Nat.eqb _ j); lra.
Qed.
Print Assumptions C28_jacobian.

Example C28_nonvacuous : build_cyclic_vars ex_o ["states.p"] = Ok ["states.v"; "inputs.u"] /\ cyclic_pairs ["p"; "v"] ["u"] ["states.p"] = [("states", "v"); ("inputs", "u")] /\
  (forall nm, In nm ["p"; "v"] \/ In nm ["u"] -> no_char dot nm = true).
Proof. repeat split; try reflexivity. intros nm [[<-|[<-|[]]]|[<-|[]]]; reflexivity. Qed.

(** when everything is excluded the problem cannot be evaluated, although the exclusions are accepted *)
Theorem C28_all_excluded_refuted : build_cyclic_vars ex_o ["inputs.u"; "states.p"; "states.v"] = Ok [] /\ cyclic_jacobianstructure ex_o [] = Raise ValueError /\
  forall x, cyclic_constraint ex_o [] x = Raise ValueError.
Proof. repeat split; reflexivity. Qed.
(** names containing a dot cannot be cyclic, although such variables can be declared *)
Theorem C28_dotted_name_refuted : forall o g n m x, cyclic_constraint o [full_name (g, String.append n (String.append "." m))] x = Raise ValueError.
Proof.
  intros o g n m x. unfold cyclic_constraint, cyclic_indices. cbn [mapM]. unfold split_full_name, full_name. cbn [fst snd].
  assert (forall s t, exists a b r, Base.split dot (String.append s (String dot t)) = a :: b :: r) as S2.
  { induction s as [|c s IH]; intro t; simpl.
    - destruct (Base.split dot t) as [|h r] eqn:E; [now apply split_not_nil in E|]. eauto.
    - destruct (IH t) as (a & b & r & ->). destruct (Ascii.eqb c dot); eauto. }
  assert (exists a b c r, Base.split dot (String.append g (String.append "." (String.append n (String.append "." m)))) = a :: b :: c :: r) as (a & b & c & r & ->); [|reflexivity].
  simpl. induction g as [|c g IH]; simpl.
  - destruct (S2 n m) as (a & b & r & E). unfold dot in E at 2. rewrite E. eauto.
  - destruct IH as (a & b & c' & r & ->). destruct (Ascii.eqb c dot); eauto.
Qed.
