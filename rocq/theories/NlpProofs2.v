(** Proofs for the composite problem (C15-C17) and the scaled solve (C18). *)
From Verif Require Import Base RBase TreeModel NlpModel NlpProofs.

Lemma set_in_any : forall c s, con_wf c -> List.length (c_con c) = c_ncon c -> List.length s = c_nin c ->
  set_input_scales c s = Ok (rescaled c s (c_con c)).
Proof.
  intros c s W Hc Hs. unfold set_input_scales.
  rewrite update_jac_ok; [cbn [bind] | eapply con_wf_same; eauto | exact Hs | exact Hc].
  rewrite update_hess_ok; [reflexivity | eapply con_wf_same; eauto | exact Hs].
Qed.

(** what the caller must supply *)
Definition con_arg (c : bcon) : Prop := con_wf c /\ List.length (c_con c) = c_ncon c.
(** a registered constraint: shapes right and all derived scales in step with [s] *)
Definition con_reg (n : nat) (s : list R) (c : bcon) : Prop :=
  con_arg c /\ c_nin c = n /\ c = rescaled c s (c_con c).
Definition obj_reg (n : nat) (s : list R) (o : bobj) : Prop := obj_wf n o /\ o = orescaled o s.

Record prob_inv (p : prob) : Prop := {
  pi_nc : NoDup (keys (p_cons p));
  pi_no : NoDup (keys (p_objs p));
  pi_s : List.length (p_scales p) = p_n p;
  pi_c : Forall (fun kc => con_reg (p_n p) (p_scales p) (snd kc)) (p_cons p);
  pi_o : Forall (fun ko => obj_reg (p_n p) (p_scales p) (snd ko)) (p_objs p);
}.

Definition pop_ok (n : nat) (o : pop) : Prop :=
  match o with
  | PAddC _ c => con_arg c
  | PAddO _ ob => obj_wf n ob
  | PScales s => List.length s = n
  | _ => True
  end.

Lemma dmem_false : forall V k (d : dict V), dmem k d = false <-> ~ In k (keys d).
Proof. intros V k d. unfold dmem. rewrite <- dget_none. destruct (dget k d); split; congruence. Qed.
Lemma dmem_true : forall V k (d : dict V), dmem k d = true <-> In k (keys d).
Proof. intros V k d. unfold dmem. rewrite <- dget_some_iff. destruct (dget k d); split; try congruence; eauto. intros [v H]; discriminate. Qed.

Lemma keys_ddel : forall V k (d : dict V) x, In x (keys (ddel k d)) -> In x (keys d).
Proof.
  intros V k d; induction d as [|[k' v] r IH]; simpl; intros x H; [tauto|].
  destruct (String.eqb k k'); simpl in H; [auto|]. destruct H; auto.
Qed.
Lemma NoDup_keys_ddel : forall V k (d : dict V), NoDup (keys d) -> NoDup (keys (ddel k d)).
Proof.
  intros V k d; induction d as [|[k' v] r IH]; simpl; intro H; [assumption|].
  inversion H; subst. destruct (String.eqb k k'); [assumption|]. simpl. constructor; [|auto].
  intro C. apply H2. eapply keys_ddel; eauto.
Qed.
Lemma In_ddel : forall V k (d : dict V) x, In x (ddel k d) -> In x d.
Proof.
  intros V k d; induction d as [|[k' v] r IH]; simpl; intros x H; [tauto|].
  destruct (String.eqb k k'); simpl in H; [auto|]. destruct H; auto.
Qed.

Lemma con_reg_args : forall n s c, List.length s = n -> con_arg c -> c_nin c = n -> con_reg n s (rescaled c s (c_con c)).
Proof.
  intros n s c Hs [W Hc] Hn. split; [split|split]; [eapply con_wf_same; eauto | exact Hc | exact Hn | reflexivity].
Qed.
Lemma obj_reg_args : forall n s o, obj_wf n o -> obj_reg n s (orescaled o s).
Proof. intros n s o W. split; [|reflexivity]. destruct W. constructor; auto. Qed.

Lemma add_constraints_spec : forall p name c, prob_inv p -> con_arg c ->
  (In name (keys (p_cons p)) \/ c_nin c <> p_n p -> add_constraints p name c = Raise ValueError) /\
  (~ In name (keys (p_cons p)) -> c_nin c = p_n p ->
     add_constraints p name c = Ok (set_cons p (p_cons p ++ [(name, rescaled c (p_scales p) (c_con c))]))).
Proof.
  intros p name c I [W Hc]. unfold add_constraints. split.
  - intros H. destruct (dmem name (p_cons p)) eqn:E; [reflexivity|]. apply dmem_false in E.
    destruct H as [H|H]; [contradiction|]. apply Nat.eqb_neq in H. now rewrite H.
  - intros H1 H2. apply dmem_false in H1 as E. rewrite E. apply Nat.eqb_eq in H2 as E2. rewrite E2. simpl.
    rewrite set_in_any; [|assumption|assumption|rewrite (pi_s p I); congruence]. simpl. now rewrite dset_notin.
Qed.

Lemma add_objective_spec : forall p name o, prob_inv p -> obj_wf (p_n p) o ->
  (In name (keys (p_objs p)) -> add_objective p name o = Raise NameError) /\
  (~ In name (keys (p_objs p)) ->
     add_objective p name o = Ok (set_objs p (p_objs p ++ [(name, orescaled o (p_scales p))]))).
Proof.
  intros p name o I W. unfold add_objective. split.
  - intros H. apply dmem_true in H. now rewrite H.
  - intros H. apply dmem_false in H as E. rewrite E. rewrite (obj_set_ok (p_n p)) by (auto; apply I).
    simpl. now rewrite dset_notin.
Qed.

Lemma mapM_map : forall A B (f : A -> result B) (g : A -> B) l, (forall a, In a l -> f a = Ok (g a)) -> mapM f l = Ok (map g l).
Proof.
  intros A B f g l; induction l as [|a r IH]; intro H; simpl; [reflexivity|].
  rewrite H by (simpl; auto). rewrite IH by (intros; apply H; simpl; auto). reflexivity.
Qed.

Lemma rescaled_twice : forall c s s' k, rescaled (rescaled c s k) s' k = rescaled c s' k.
Proof. reflexivity. Qed.

Lemma set_scales_ok : forall p s, prob_inv p -> List.length s = p_n p ->
  set_dec_var_scales p s = Ok {| p_n := p_n p; p_scales := s; p_triu := p_triu p;
     p_cons := map (fun kc => (fst kc, rescaled (snd kc) s (c_con (snd kc)))) (p_cons p);
     p_objs := map (fun ko => (fst ko, orescaled (snd ko) s)) (p_objs p) |}.
Proof.
  intros p s I Hs. unfold set_dec_var_scales.
  rewrite mapM_map with (g := fun ko => (fst ko, orescaled (snd ko) s)).
  2:{ intros [k o] Hin. pose proof (pi_o p I) as F. rewrite Forall_forall in F. destruct (F _ Hin) as [W _].
      simpl in *. now rewrite (obj_set_ok (p_n p)). }
  cbn [bind]. rewrite mapM_map with (g := fun kc => (fst kc, rescaled (snd kc) s (c_con (snd kc)))).
  2:{ intros [k c] Hin. pose proof (pi_c p I) as F. rewrite Forall_forall in F. destruct (F _ Hin) as ([W Hc] & Hn & _).
      simpl in *. rewrite set_in_any; [reflexivity|assumption|assumption|congruence]. }
  reflexivity.
Qed.

Lemma keys_map_snd : forall V W (f : V -> W) (d : dict V), keys (map (fun kv => (fst kv, f (snd kv))) d) = keys d.
Proof. intros. unfold keys. rewrite map_map. reflexivity. Qed.

Lemma hstruct_same : forall p, exists m, fst (prob_hessianstructure p) = set_triu p m.
Proof.
  intro p. unfold prob_hessianstructure.
  destruct (hstackl (hess_rows p)); [destruct (hstackl (hess_cols p))|]; simpl; eauto; exists (p_triu p); destruct p; reflexivity.
Qed.
Lemma hess_same : forall p x l f, exists m, fst (prob_hessian p x l f) = set_triu p m.
Proof.
  intros p x l f. unfold prob_hessian. destruct (p_triu p) eqn:E.
  - simpl. exists (p_triu p). destruct p; reflexivity.
  - destruct (hstruct_same p) as [m Hm]. destruct (prob_hessianstructure p) as [p' [?|?]]; simpl in *; eauto.
Qed.

Lemma inv_triu : forall p m, prob_inv p -> prob_inv (set_triu p m).
Proof. intros p m [? ? ? ? ?]. constructor; assumption. Qed.

Lemma pstep_inv : forall p o, prob_inv p -> pop_ok (p_n p) o -> prob_inv (pstep p o) /\ p_n (pstep p o) = p_n p.
Proof.
  intros p o I Hok. destruct o as [name c|name|name ob|name|s| |x l f]; simpl in *.
  - destruct (add_constraints_spec p name c I Hok) as [H1 H2].
    destruct (in_dec string_dec name (keys (p_cons p))); [rewrite H1 by auto; split; auto|].
    destruct (Nat.eq_dec (c_nin c) (p_n p)) as [E|E]; [|rewrite H1 by auto; split; auto].
    rewrite H2 by assumption. simpl. split; [|reflexivity]. destruct I as [I1 I2 I3 I4 I5]. constructor; simpl; try assumption.
    + unfold keys. rewrite map_app. simpl. apply NoDup_snoc; assumption.
    + apply Forall_app. split; [assumption|]. constructor; [|constructor]. simpl. now apply con_reg_args.
  - unfold delete_constraints. destruct (dmem name (p_cons p)); simpl; [|split; auto].
    split; [|reflexivity]. destruct I as [I1 I2 I3 I4 I5]. constructor; simpl; try assumption.
    + now apply NoDup_keys_ddel.
    + rewrite Forall_forall in *. intros y Hy. apply I4. eapply In_ddel; eauto.
  - destruct (add_objective_spec p name ob I Hok) as [H1 H2].
    destruct (in_dec string_dec name (keys (p_objs p))); [rewrite H1 by auto; split; auto|].
    rewrite H2 by assumption. simpl. split; [|reflexivity]. destruct I as [I1 I2 I3 I4 I5]. constructor; simpl; try assumption.
    + unfold keys. rewrite map_app. simpl. apply NoDup_snoc; assumption.
    + apply Forall_app. split; [assumption|]. constructor; [|constructor]. simpl. now apply obj_reg_args.
  - unfold delete_objective. destruct (dmem name (p_objs p)); simpl; [|split; auto].
    split; [|reflexivity]. destruct I as [I1 I2 I3 I4 I5]. constructor; simpl; try assumption.
    + now apply NoDup_keys_ddel.
    + rewrite Forall_forall in *. intros y Hy. apply I5. eapply In_ddel; eauto.
  - rewrite set_scales_ok by assumption. simpl. split; [|reflexivity]. destruct I as [I1 I2 I3 I4 I5]. constructor; simpl.
    + now rewrite (keys_map_snd _ _ (fun c => rescaled c s (c_con c))).
    + now rewrite (keys_map_snd _ _ (fun o => orescaled o s)).
    + assumption.
    + apply Forall_map. eapply Forall_impl; [|exact I4]. intros [k c] (A & B & _). simpl in *.
      apply con_reg_args; assumption.
    + apply Forall_map. eapply Forall_impl; [|exact I5]. intros [k c] (A & _). simpl in *. apply obj_reg_args; assumption.
  - destruct (hstruct_same p) as [m ->]. split; [now apply inv_triu | reflexivity].
  - destruct (hess_same p x l f) as [m ->]. split; [now apply inv_triu | reflexivity].
Qed.

Lemma make_prob_inv : forall n, prob_inv (make_prob n).
Proof. intro n. constructor; simpl; try constructor. apply repeat_length. Qed.

Lemma prun_inv : forall ops p, prob_inv p -> Forall (pop_ok (p_n p)) ops -> prob_inv (prun p ops) /\ p_n (prun p ops) = p_n p.
Proof.
  intros ops; induction ops as [|o r IH]; intros p I H; simpl; [auto|]. inversion H; subst.
  destruct (pstep_inv p o I) as [I' E]; [assumption|]. rewrite <- E in H3.
  destruct (IH _ I' H3) as [I2 E2]. split; [assumption | congruence].
Qed.

(** ** Vertical stacking *)
Definition off (cs : list bcon) (k : nat) : nat := list_sum (map c_ncon (firstn k cs)).

Lemma hstackl_ne : forall A (l : list (list A)), l <> [] -> hstackl l = Ok (concat l).
Proof. intros A [|a r] H; [congruence | reflexivity]. Qed.

Lemma off_0 : forall cs, off cs 0 = 0%nat. Proof. reflexivity. Qed.
Lemma off_S : forall c cs k, off (c :: cs) (S k) = (c_ncon c + off cs k)%nat. Proof. reflexivity. Qed.

Lemma jac_rows_ge : forall cs o, Forall (fun r => (o <= r)%nat) (concat (jac_rows_from o cs)).
Proof.
  intros cs; induction cs as [|c r IH]; intros o; simpl; [constructor|]. apply Forall_app. split.
  - apply Forall_map. apply Forall_forall. intros; lia.
  - eapply Forall_impl; [|apply IH]. intros a Ha. simpl in Ha. lia.
Qed.

Lemma jac_stack : forall (J : bcon -> list R) cs o k c i j,
  Forall (fun c => List.length (c_jr c) = List.length (c_jc c) /\ List.length (J c) = List.length (c_jr c) /\
                   Forall (fun r => (r < c_ncon c)%nat) (c_jr c)) cs ->
  nth_error cs k = Some c -> (i < c_ncon c)%nat ->
  tri (concat (jac_rows_from o cs)) (concat (map c_jc cs)) (concat (map J cs)) (o + off cs k + i) j
  = tri (c_jr c) (c_jc c) (J c) i j.
Proof.
  intros J cs; induction cs as [|c0 r IH]; intros o k c i j H Hk Hi; [destruct k; discriminate|].
  inversion H as [|? ? (L1 & L2 & L3) H']; subst. simpl concat.
  rewrite tri_app by (rewrite map_length; congruence). destruct k as [|k].
  - simpl in Hk. inversion Hk; subst c0. rewrite off_0, tri_shift_rows.
    replace (Nat.leb o (o + 0 + i)) with true by (symmetry; apply Nat.leb_le; lia).
    replace (o + 0 + i - o)%nat with i by lia.
    rewrite (tri_zero_row (concat (jac_rows_from (o + c_ncon c) r))); [lra|].
    eapply Forall_impl; [|apply jac_rows_ge]. intros a Ha. simpl in Ha. lia.
  - rewrite off_S, tri_shift_rows. simpl in Hk.
    rewrite (tri_zero_row (c_jr c0)).
    + replace (if Nat.leb o (o + (c_ncon c0 + off r k) + i) then 0 else 0) with 0 by (destruct (Nat.leb _ _); reflexivity).
      rewrite Rplus_0_l. replace (o + (c_ncon c0 + off r k) + i)%nat with ((o + c_ncon c0) + off r k + i)%nat by lia.
      now apply IH.
    + eapply Forall_impl; [|exact L3]. intros a Ha. simpl in Ha. lia.
Qed.

Lemma concat_get : forall (F : bcon -> list R) cs k c i, Forall (fun c => List.length (F c) = c_ncon c) cs ->
  nth_error cs k = Some c -> (i < c_ncon c)%nat -> vget (off cs k + i) (concat (map F cs)) = vget i (F c).
Proof.
  intros F cs; induction cs as [|c0 r IH]; intros k c i H Hk Hi; [destruct k; discriminate|].
  inversion H; subst. unfold vget in *. simpl. destruct k as [|k]; simpl in Hk.
  - inversion Hk; subst. rewrite off_0, app_nth1 by lia. reflexivity.
  - rewrite off_S, app_nth2 by lia. replace (c_ncon c0 + off r k + i - List.length (F c0))%nat with (off r k + i)%nat by lia.
    now apply IH.
Qed.

Lemma locate : forall cs I, (I < list_sum (map c_ncon cs))%nat ->
  exists k c i, nth_error cs k = Some c /\ (i < c_ncon c)%nat /\ I = (off cs k + i)%nat.
Proof.
  intros cs; induction cs as [|c r IH]; intros I H; simpl in H; [lia|].
  destruct (Nat.lt_ge_cases I (c_ncon c)) as [Hl|Hl].
  - exists 0%nat, c, I. repeat split; auto.
  - destruct (IH (I - c_ncon c)%nat) as (k & c' & i & E1 & E2 & E3); [lia|].
    exists (S k), c', i. split; [assumption|]. split; [assumption|]. rewrite off_S. lia.
Qed.

(** ** Splitting a vector by constraint name *)
Lemma split_sizes_concat : forall (pieces : list (list R)), pieces <> [] ->
  split_sizes (map (@List.length R) pieces) (concat pieces) = pieces.
Proof.
  intros p; induction p as [|a r IH]; intro H; [congruence|]. destruct r as [|b r].
  - simpl. now rewrite app_nil_r.
  - change (map (@List.length R) (a :: b :: r)) with (List.length a :: List.length b :: map (@List.length R) r).
    change (concat (a :: b :: r)) with (a ++ concat (b :: r)).
    change (split_sizes (List.length a :: List.length b :: map (@List.length R) r) (a ++ concat (b :: r)))
      with (firstn (List.length a) (a ++ concat (b :: r)) :: split_sizes (map (@List.length R) (b :: r)) (skipn (List.length a) (a ++ concat (b :: r)))).
    rewrite firstn_app, firstn_all, Nat.sub_diag, skipn_app, skipn_all, Nat.sub_diag. simpl firstn. rewrite app_nil_r. simpl skipn. simpl app at 2.
    f_equal. apply IH. discriminate.
Qed.

Lemma map_fst_combine : forall A B (l : list A) (m : list B), List.length l = List.length m -> map fst (combine l m) = l.
Proof. intros A B l; induction l as [|a r IH]; intros [|b s] H; simpl in *; try discriminate; auto. f_equal. apply IH. lia. Qed.

(** consecutive slices of a multiplier vector, one per constraint, in registration order *)
Fixpoint slices (cs : list bcon) (lam : list R) : list (list R) :=
  match cs with
  | [] => []
  | c :: r => firstn (c_ncon c) lam :: slices r (skipn (c_ncon c) lam)
  end.

Lemma slices_length : forall cs lam, List.length (slices cs lam) = List.length cs.
Proof. intros cs; induction cs; intros; simpl; auto. Qed.

Lemma split_sizes_slices : forall cs lam, cs <> [] -> List.length lam = list_sum (map c_ncon cs) ->
  split_sizes (map c_ncon cs) lam = slices cs lam.
Proof.
  intros cs; induction cs as [|c r IH]; intros lam Hne Hl; [congruence|]. destruct r as [|c2 r].
  - simpl in *. rewrite firstn_all2 by lia. reflexivity.
  - change (split_sizes (map c_ncon (c :: c2 :: r)) lam) with
      (firstn (c_ncon c) lam :: split_sizes (map c_ncon (c2 :: r)) (skipn (c_ncon c) lam)).
    rewrite IH; [reflexivity|discriminate|]. rewrite skipn_length. simpl in *. lia.
Qed.

Lemma split_constraints_spec : forall p lam, prob_inv p -> List.length lam = num_con p ->
  split_constraints p lam = combine (keys (p_cons p)) (slices (values (p_cons p)) lam).
Proof.
  intros p lam I Hl. unfold split_constraints.
  destruct (p_cons p) as [|kc r] eqn:E; [reflexivity|]. rewrite <- E in *.
  rewrite split_sizes_slices; [|rewrite E; discriminate|exact Hl].
  apply dict_of_list_nodup. rewrite map_fst_combine; [apply I|].
  rewrite slices_length. unfold keys, values. now rewrite !map_length.
Qed.

(** ** Hessian *)
Lemma tri_mask : forall rs cs vs i j, List.length rs = List.length cs -> List.length rs = List.length vs ->
  tri (maskl rs (map2 Nat.leb rs cs)) (maskl cs (map2 Nat.leb rs cs)) (maskl vs (map2 Nat.leb rs cs)) i j
  = if Nat.leb i j then tri rs cs vs i j else 0.
Proof.
  intros rs; induction rs as [|r rs IH]; intros [|c cs] [|v vs] i j H1 H2; simpl in *; try discriminate;
    [destruct (Nat.leb i j); reflexivity|].
  specialize (IH cs vs i j ltac:(lia) ltac:(lia)).
  destruct (Nat.leb_spec r c); simpl; rewrite IH; destruct (Nat.leb_spec i j); auto;
    destruct (Nat.eqb_spec r i), (Nat.eqb_spec c j); simpl; try lra; lia.
Qed.

Lemma tri_concat : forall X (rs cs : X -> list nat) (vs : X -> list R) l i j,
  (forall x, In x l -> List.length (rs x) = List.length (cs x) /\ List.length (rs x) = List.length (vs x)) ->
  tri (concat (map rs l)) (concat (map cs l)) (concat (map vs l)) i j = rsum (map (fun x => tri (rs x) (cs x) (vs x) i j) l).
Proof.
  intros X rs cs vs l i j; induction l as [|x r IH]; intro H; simpl; [reflexivity|].
  destruct (H x) as [H1 H2]; [simpl; auto|]. rewrite tri_app by assumption. rewrite IH; [reflexivity|].
  intros; apply H; simpl; auto.
Qed.

Lemma length_concat_maps : forall X Y Z (f : X -> list Y) (g : X -> list Z) l, (forall x, In x l -> List.length (f x) = List.length (g x)) ->
  List.length (concat (map f l)) = List.length (concat (map g l)).
Proof.
  intros X Y Z f g l; induction l as [|x r IH]; intro H; simpl; [reflexivity|].
  rewrite !app_length, IH; [f_equal; apply H; simpl; auto | intros; apply H; simpl; auto].
Qed.

(** Sum over the constraints of a term that sees the constraint and its own multipliers. *)
Fixpoint con_terms (T : bcon -> list R -> R) (cs : list bcon) (lam : list R) : R :=
  match cs with
  | [] => 0
  | c :: r => T c (firstn (c_ncon c) lam) + con_terms T r (skipn (c_ncon c) lam)
  end.

Lemma dget_combine_cons : forall V k ks (v : V) vs, dget k (combine (k :: ks) (v :: vs)) = Some v.
Proof. intros. simpl. now rewrite String.eqb_refl. Qed.

Lemma hess_lookup : forall X (g : bcon -> list R -> X) (pc : dict bcon) (lams : list (list R)),
  NoDup (keys pc) -> List.length lams = List.length pc ->
  mapM (fun kc => fmap (g (snd kc)) (lookup_err (fst kc) (combine (keys pc) lams))) pc = Ok (map2 g (values pc) lams).
Proof.
  intros X g pc lams Hnd Hl.
  assert (forall pre lpre rest lrest, pc = pre ++ rest -> lams = lpre ++ lrest -> List.length lpre = List.length pre ->
    mapM (fun kc => fmap (g (snd kc)) (lookup_err (fst kc) (combine (keys pc) lams))) rest = Ok (map2 g (values rest) lrest)) as H.
  { intros pre lpre rest; revert pre lpre; induction rest as [|[k c] r IH]; intros pre lpre lrest E1 E2 E3; simpl; [reflexivity|].
    destruct lrest as [|l lr].
    { exfalso. subst. rewrite !app_length in Hl. simpl in Hl. lia. }
    unfold lookup_err at 1.
    assert (dget k (combine (keys pc) lams) = Some l) as ->.
    { subst pc lams. unfold keys in *. rewrite map_app in *. simpl in *. clear -Hnd E3.
      revert lpre E3. induction pre as [|[k' c'] pre IH]; intros [|l' lpre] E3; simpl in *; try discriminate.
      - now rewrite String.eqb_refl.
      - inversion Hnd; subst. destruct (String.eqb_spec k k') as [->|Hne].
        + exfalso. apply H1. rewrite in_app_iff. right; left; reflexivity.
        + apply IH; [assumption | lia]. }
    cbn [fmap]. rewrite (IH (pre ++ [(k, c)]) (lpre ++ [l]) lr).
    - reflexivity.
    - now rewrite <- app_assoc.
    - now rewrite <- app_assoc.
    - rewrite !app_length. simpl. lia. }
  apply (H [] [] pc lams); reflexivity.
Qed.

Section HessVal.
Context (p : prob) (x lam : list R) (fac : R).
Context (I : prob_inv p) (Hx : List.length x = p_n p) (Hl : List.length lam = num_con p).

Lemma reg_hess_len : forall k c l, In (k, c) (p_cons p) -> List.length l = c_ncon c ->
  List.length (con_hessian c x l) = List.length (c_hr c) /\ List.length (c_hr c) = List.length (c_hc c).
Proof using I Hx.
  intros k c l Hin Hlen. pose proof (pi_c p I) as F. rewrite Forall_forall in F. destruct (F _ Hin) as ([W Hc] & Hn & E). simpl in *.
  split; [|apply W]. rewrite E. rewrite resc_hessian_len; auto; try congruence. rewrite (pi_s p I). congruence.
Qed.

Lemma reg_ohess_len : forall k o, In (k, o) (p_objs p) ->
  List.length (obj_hessian o x) = List.length (o_hr o) /\ List.length (o_hr o) = List.length (o_hc o).
Proof using I Hx.
  intros k o Hin. pose proof (pi_o p I) as F. rewrite Forall_forall in F. destruct (F _ Hin) as (W & E). simpl in *.
  split; [|apply W]. rewrite E. unfold obj_hessian. simpl.
  assert (List.length (o_h o (vmul x (p_scales p))) = List.length (o_hr o)) as Eh.
  { apply (ow_hv _ _ W). rewrite vmul_length; [assumption|]. rewrite (pi_s p I). assumption. }
  rewrite vdiv_length; [assumption|]. rewrite map2_length; [assumption | apply W].
Qed.

Definition cur_mask : list bool := map2 Nat.leb (concat (hess_rows p)) (concat (hess_cols p)).

(** the raw (unmasked) hessian values *)
Definition raw_vals : list R :=
  concat (map2 (fun c l => con_hessian c x l) (values (p_cons p)) (slices (values (p_cons p)) lam))
  ++ concat (map (fun o => map (Rmult fac) (obj_hessian o x)) (values (p_objs p))).

Lemma con_part : forall (cs : list bcon) l, (forall c, In c cs -> exists k, In (k, c) (p_cons p)) ->
  List.length l = list_sum (map c_ncon cs) ->
  List.length (concat (map c_hr cs)) = List.length (concat (map c_hc cs)) /\
  List.length (concat (map c_hr cs)) = List.length (concat (map2 (fun c l => con_hessian c x l) cs (slices cs l))) /\
  forall i j, (tri (concat (map c_hr cs)) (concat (map c_hc cs)) (concat (map2 (fun c l => con_hessian c x l) cs (slices cs l))) i j)
  = con_terms (fun c l => tri (c_hr c) (c_hc c) (con_hessian c x l) i j) cs l.
Proof using I Hx Hl.
  intros cs; induction cs as [|c r IH]; intros l Hin Hlen; simpl; [auto|].
  destruct (Hin c) as [k Hk]; [simpl; auto|]. simpl in Hlen.
  destruct (reg_hess_len k c (firstn (c_ncon c) l) Hk) as [L1 L2]; [rewrite firstn_length_le; lia|].
  destruct (IH (skipn (c_ncon c) l)) as (M1 & M2 & M3); [intros; apply Hin; simpl; auto | rewrite skipn_length; lia|].
  split; [|split].
  - rewrite !app_length. lia.
  - rewrite !app_length. lia.
  - intros i j. rewrite tri_app by congruence. now rewrite M3.
Qed.

Lemma hess_value : (p_cons p <> [] \/ p_objs p <> []) -> (p_triu p = None \/ p_triu p = Some cur_mask) ->
  exists vs rs cs, snd (prob_hessian p x lam fac) = Ok vs /\ snd (prob_hessianstructure p) = Ok (rs, cs) /\
    List.length rs = List.length cs /\ List.length vs = List.length rs /\
    forall i j, tri rs cs vs i j = if Nat.leb i j then
      con_terms (fun c l => tri (c_hr c) (c_hc c) (con_hessian c x l) i j) (values (p_cons p)) lam
      + fac * rsum (map (fun o => tri (o_hr o) (o_hc o) (obj_hessian o x) i j) (values (p_objs p)))
      else 0.
Proof using I Hx Hl.
  intros Hne Ht.
  assert (hess_rows p <> [] /\ hess_cols p <> []) as [Nr Nc].
  { unfold hess_rows, hess_cols, values. destruct (p_cons p), (p_objs p); simpl; split; try discriminate; destruct Hne; congruence. }
  destruct (con_part (values (p_cons p)) lam) as (M1 & M2 & M3).
  { intros c Hc. apply in_map_iff in Hc. destruct Hc as ([k c'] & E & Hin). simpl in E. subst. eauto. }
  { exact Hl. }
  assert (forall o, In o (values (p_objs p)) -> List.length (obj_hessian o x) = List.length (o_hr o) /\ List.length (o_hr o) = List.length (o_hc o)) as Ho.
  { intros o Hc. apply in_map_iff in Hc. destruct Hc as ([k c'] & E & Hin). simpl in E. subst. eapply reg_ohess_len; eauto. }
  assert (List.length (concat (hess_rows p)) = List.length (concat (hess_cols p))) as L1.
  { unfold hess_rows, hess_cols. rewrite !concat_app, !app_length. rewrite M1. f_equal.
    apply length_concat_maps. intros o Hin. now apply Ho. }
  assert (List.length (concat (hess_rows p)) = List.length raw_vals) as L2.
  { unfold hess_rows, raw_vals. rewrite !concat_app, !app_length. rewrite M2. f_equal.
    apply length_concat_maps. intros o Hin. rewrite map_length. symmetry. now apply Ho. }
  assert (snd (prob_hessianstructure p) = Ok (maskl (concat (hess_rows p)) cur_mask, maskl (concat (hess_cols p)) cur_mask)) as Es.
  { unfold prob_hessianstructure. now rewrite !hstackl_ne. }
  assert (forall A B (l : list A) (l' : list B) m, List.length l = List.length l' -> List.length (maskl l m) = List.length (maskl l' m)) as Hm.
  { intros A B l; induction l as [|a r IH]; intros [|b s] m H; simpl in *; try discriminate; [reflexivity|].
    destruct m as [|[|] m]; simpl; auto. }
  exists (maskl raw_vals cur_mask), (maskl (concat (hess_rows p)) cur_mask), (maskl (concat (hess_cols p)) cur_mask).
  split; [|split; [exact Es|split; [now apply Hm|split; [symmetry; now apply Hm|]]]].
  - unfold prob_hessian.
    assert (forall q, p_cons q = p_cons p -> p_objs q = p_objs p -> p_triu q = Some cur_mask ->
      (bind (mapM (fun kc => fmap (con_hessian (snd kc) x) (lookup_err (fst kc) (split_constraints q lam))) (p_cons q)) (fun cv =>
           bind (hstackl (cv ++ map (fun o => map (Rmult fac) (obj_hessian o x)) (values (p_objs q)))) (fun vals =>
           match p_triu q with Some m => mask vals m | None => Raise IndexError end))) = Ok (maskl raw_vals cur_mask)) as G.
    { intros q E1 E2 E3. rewrite E1, E2, E3.
      assert (split_constraints q lam = combine (keys (p_cons p)) (slices (values (p_cons p)) lam)) as ->.
      { unfold split_constraints. rewrite E1. apply split_constraints_spec; assumption. }
      rewrite (hess_lookup _ (fun c l => con_hessian c x l)).
      - cbn [bind].
        assert (map2 (fun c l => con_hessian c x l) (values (p_cons p)) (slices (values (p_cons p)) lam)
             ++ map (fun o => map (Rmult fac) (obj_hessian o x)) (values (p_objs p)) <> []) as Hn.
        { unfold values. destruct (p_cons p), (p_objs p); simpl; try discriminate; destruct Hne; congruence. }
        rewrite hstackl_ne by exact Hn. cbn [bind]. rewrite concat_app. fold raw_vals. unfold mask.
        unfold cur_mask. rewrite map2_length by exact L1. rewrite <- L2. rewrite L1 at 1. rewrite <- L1. now rewrite Nat.eqb_refl.
      - apply I.
      - rewrite slices_length. unfold values. now rewrite map_length. }
    destruct Ht as [Ht|Ht]; rewrite Ht.
    + unfold prob_hessianstructure. rewrite !hstackl_ne by assumption. cbn [snd]. apply G; reflexivity.
    + cbn [snd]. apply G; auto.
  - intros i j. unfold cur_mask. rewrite tri_mask by assumption. destruct (Nat.leb i j); [|reflexivity].
    unfold hess_rows, hess_cols, raw_vals. rewrite !concat_app. rewrite tri_app by assumption. rewrite M3. f_equal.
    rewrite tri_concat.
    + rewrite <- rsum_scale, map_map. f_equal. apply map_ext. intro o. apply tri_const_scale.
    + intros o Hin. rewrite map_length. destruct (Ho o Hin). split; congruence.
Qed.
End HessVal.

(** ** The composite lagrangian *)
Lemma vdot_app : forall a1 a2 b1 b2, List.length a1 = List.length b1 -> vdot (a1 ++ a2) (b1 ++ b2) = vdot a1 b1 + vdot a2 b2.
Proof.
  unfold vdot, vmul. intros a1; induction a1 as [|a r IH]; intros a2 [|b s] b2 H; simpl in *; try discriminate; [lra|].
  rewrite IH by lia. lra.
Qed.

Lemma vdot_slices : forall (F : bcon -> list R) cs lam, (forall c, In c cs -> List.length (F c) = c_ncon c) ->
  List.length lam = list_sum (map c_ncon cs) ->
  vdot lam (concat (map F cs)) = con_terms (fun c l => vdot l (F c)) cs lam.
Proof.
  intros F cs; induction cs as [|c r IH]; intros lam H Hl; simpl in *.
  - destruct lam; [reflexivity | discriminate].
  - rewrite <- (firstn_skipn (c_ncon c) lam) at 1. rewrite vdot_app.
    + rewrite IH; [reflexivity | intros; apply H; auto | rewrite skipn_length; lia].
    + rewrite firstn_length_le by lia. symmetry. apply H. auto.
Qed.

Lemma hess_on_plus : forall P n f1 f2 H1 H2, is_hessian_on P n f1 H1 -> is_hessian_on P n f2 H2 ->
  is_hessian_on P n (fun x => f1 x + f2 x) (fun x i j => H1 x i j + H2 x i j).
Proof.
  intros P n f1 f2 H1 H2 (g1 & A1 & B1) (g2 & A2 & B2). exists (fun x j => g1 x j + g2 x j). split.
  - intros x j Hx Hj. apply (pderiv_plus f1 f2); auto.
  - intros x j k Hx Hj Hk HP. apply (pderiv_plus (fun y => g1 y j) (fun y => g2 y j)); auto.
Qed.
Lemma hess_on_scal : forall P n k f H, is_hessian_on P n f H -> is_hessian_on P n (fun x => k * f x) (fun x i j => k * H x i j).
Proof.
  intros P n k f H (g & A & B). exists (fun x j => k * g x j). split.
  - intros x j Hx Hj. apply (pderiv_scal f); auto.
  - intros x j l Hx Hj Hk HP. apply (pderiv_scal (fun y => g y j)); auto.
Qed.
Lemma hess_on_zero : forall P n, is_hessian_on P n (fun _ => 0) (fun _ _ _ => 0).
Proof. intros P n. exists (fun _ _ => 0). split; [intros x j _ _ | intros x j k _ _ _ _]; apply pderiv_const. Qed.
Lemma hess_on_ext : forall (P : nat -> nat -> Prop) n (f f' : list R -> R) (H H' : list R -> nat -> nat -> R), (forall x, List.length x = n -> f x = f' x) ->
  (forall x i j, List.length x = n -> P i j -> H x i j = H' x i j) ->
  is_hessian_on P n f H -> is_hessian_on P n f' H'.
Proof.
  intros P n f f' H H' E1 E2 (g & A & B). exists g. split.
  - intros x j Hx Hj. eapply pderiv_ext_len; [|apply A; assumption]. intros y Hy. apply E1. congruence.
  - intros x j k Hx Hj Hk HP. rewrite <- E2 by assumption. apply B; assumption.
Qed.

Lemma hess_on_terms : forall P n (F : bcon -> list R -> list R) (G : bcon -> list R -> list R -> nat -> nat -> R) cs lam,
  (forall c l, In c cs -> List.length l = c_ncon c -> is_hessian_on P n (fun x => vdot l (F c x)) (G c l)) ->
  List.length lam = list_sum (map c_ncon cs) ->
  is_hessian_on P n (fun x => con_terms (fun c l => vdot l (F c x)) cs lam)
                    (fun x i j => con_terms (fun c l => G c l x i j) cs lam).
Proof.
  intros P n F G cs; induction cs as [|c r IH]; intros lam H Hl; simpl in *; [apply hess_on_zero|].
  apply (hess_on_plus P n (fun x => vdot (firstn (c_ncon c) lam) (F c x)) (fun x => con_terms (fun c0 l => vdot l (F c0 x)) r (skipn (c_ncon c) lam))).
  - apply H; auto. rewrite firstn_length_le; lia.
  - apply IH; [intros; apply H; auto|]. rewrite skipn_length; lia.
Qed.

Lemma hess_on_sum : forall X P n (F : X -> list R -> R) (G : X -> list R -> nat -> nat -> R) l,
  (forall a, In a l -> is_hessian_on P n (F a) (G a)) ->
  is_hessian_on P n (fun x => rsum (map (fun a => F a x) l)) (fun x i j => rsum (map (fun a => G a x i j) l)).
Proof.
  intros X P n F G l; induction l as [|a r IH]; intro H; simpl; [apply hess_on_zero|].
  apply (hess_on_plus P n (F a) (fun x => rsum (map (fun b => F b x) r))); [apply H; simpl; auto|].
  apply IH. intros; apply H; simpl; auto.
Qed.
