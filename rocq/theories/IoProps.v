(** C30 and C33: submodel calls; named vectors. *)
From Verif Require Import Base TreeModel TreeProofs UtilsModel UtilsProofs UtilsProofs2 IoModel IoSpec IoProofs.

(** ** C30 *)
(** what a call does, after every history: a second call before the outputs are combined raises RuntimeError; otherwise a proper call returns what
    the submodel returns; a call without the values the submodel needs, or of something that is not a submodel, raises KeyError *)
Theorem C30_call : forall V root (h : list (cop V)) n kw out, NoDup (keys (sm_subs root)) -> 
  (In n (keys (sm_subs root)) -> no_char dot n = true -> 
     ((exists r, pending root h n r) -> returns root h (Call n kw out) = Raise RuntimeError) /\
     ((forall r, ~ pending root h n r) -> (proper root n kw -> returns root h (Call n kw out) = out) /\ (~ proper root n kw -> returns root h (Call n kw out) = Raise KeyError))) /\
  (~ In n (keys (sm_subs root)) -> returns root h (Call n kw out) = Raise KeyError).
Proof.
  intros V root h n kw out ND. split.
  - intros Hin Hd. assert (exists o, dget n (crun root h) = Some o) as [o Ho] by (apply dget_some_iff; now rewrite keys_crun).
    assert (exists ss i s l, dget n (sm_subs root) = Some (SM ss i s l)) as (ss & i & s & l & Es) by (apply dget_some_iff in Hin; destruct Hin as [[ss i s l] E]; eauto).
    split.
    + intros [r Hr]. apply (buffer_pending root ND) in Hr. unfold returns. cbn [cstep]. unfold call_submodel. rewrite split_clean by assumption. cbn [sm_walk]. now rewrite Es, Hr.
    + intro Hno. assert (dget n (crun root h) = Some None) as Hn.
      { destruct o as [r|]; [|assumption]. exfalso. apply (Hno r). now apply (buffer_pending root ND). }
      split.
      * intro P. unfold returns. cbn [cstep]. rewrite (proper_call root _ _ _ _ Hd P Hn). destruct out; reflexivity.
      * intro P. unfold returns. cbn [cstep]. unfold call_submodel. rewrite split_clean by assumption. cbn [sm_walk]. rewrite Es, Hn.
        assert (bind (check_group kw "inputs" i) (fun _ => if ss then check_group kw "states" s else Ok tt) = Raise KeyError) as ->; [|reflexivity].
        unfold check_group, lookup_err. destruct (dget "inputs" kw) as [gi|] eqn:Ei; [|reflexivity]. cbn [bind]. destruct (check_keys_ok i gi) as [C1 C2]. unfold check_keys in *. destruct (forallb (fun n => mem n gi) i); [|reflexivity]. cbn [bind].
        destruct ss; [|exfalso; apply P; exists false, i, s, l; split; [assumption|]; split; [exists gi; split; [assumption|now apply C1]|discriminate]].
        destruct (dget "states" kw) as [gs|] eqn:Egs; [|reflexivity]. cbn [bind]. destruct (check_keys_ok s gs) as [D1 D2]. unfold check_keys in *. destruct (forallb (fun n => mem n gs) s); [|reflexivity].
        exfalso. apply P. exists true, i, s, l. split; [assumption|]. split; [exists gi; split; [assumption|now apply C1]|]. intros _. exists gs. split; [assumption|now apply D1].
  - intro Hn. unfold returns. cbn [cstep]. unfold call_submodel. assert (dget n (crun root h) = None) as -> by (apply dget_none; now rewrite keys_crun).
    assert (forall names t, match sm_walk names t with Ok _ => True | Raise e => e = KeyError end) as W.
    { intros names; induction names as [|a names IH]; intro t; [exact I|]. cbn [sm_walk]. destruct (dget a (sm_subs t)); [apply IH|reflexivity]. }
    specialize (W (Base.split dot n) root). destruct (sm_walk _ root) as [[]|e]; [reflexivity|]. now rewrite W.
Qed.
Print Assumptions C30_call.

(** combining: succeeds exactly when every submodel has been called since the last successful combination, gives exactly the prefixed outputs,
    and starts a new round; otherwise KeyError and nothing changes *)
Theorem C30_combine : forall V root (h : list (cop V)), NoDup (keys (sm_subs root)) -> Forall (fun n => no_char dot n = true) (keys (sm_subs root)) ->
  ((exists d, returns root h Combine = Ok d) <-> forall n, In n (keys (sm_subs root)) -> exists r, pending root h n r) /\
  (forall e, returns root h Combine = Raise e -> e = KeyError /\ forall n r, pending root (h ++ [Combine]) n r <-> pending root h n r) /\
  (forall d, returns root h Combine = Ok d -> (forall n r, ~ pending root (h ++ [Combine]) n r) /\
     ((forall n r, pending root h n r -> NoDup (keys r)) -> forall q v, dget q d = Some v <-> exists n k r, pending root h n r /\ q = prefixed n k /\ dget k r = Some v)).
Proof.
  intros V root h ND Hdot. assert (NoDup (keys (crun root h))) as NDb by (now rewrite keys_crun). destruct (combine_spec root _ NDb) as (C1 & C2 & C3).
  change (returns root h Combine) with (snd (combine_outputs root (crun root h))).
  split; [|split].
  - rewrite C1, keys_crun. split; intros H n Hn; destruct (H n Hn) as [r Hr]; exists r; now apply (buffer_pending root ND).
  - intros e E. destruct (C2 e E) as [-> Eb]. split; [reflexivity|]. intros n r. rewrite <- !(buffer_pending root ND), crun_snoc. cbn [cstep]. now rewrite Eb.
  - intros d E. split.
    + intros n r H. apply (buffer_pending root ND) in H. rewrite crun_snoc in H. cbn [cstep] in H. rewrite (C3 d E) in H. now apply dget_clear in H.
    + intros HR q v. rewrite (combine_contents root (crun root h) d NDb) by (try (rewrite keys_crun; assumption); try assumption; intros n r Hr; apply (HR n); now apply (buffer_pending root ND)).
      split; intros (n & k & r & H1 & H2); exists n, k, r; (split; [now apply (buffer_pending root ND)|assumption]).
Qed.
Print Assumptions C30_combine.

(** a whole round in any order, from a state in which nothing is pending: every submodel once, each returning something, then combining succeeds *)
Theorem C30_round : forall V root (h : list (cop V)) order kws rets, NoDup (keys (sm_subs root)) -> Forall (fun n => no_char dot n = true) (keys (sm_subs root)) ->
  (forall n r, ~ pending root h n r) -> NoDup order -> (forall n, In n order <-> In n (keys (sm_subs root))) -> (forall n, In n order -> proper root n (kws n)) ->
  let round := map (fun n => Call n (kws n) (Ok (rets n))) order in
  (forall a n b, order = a ++ n :: b -> returns root (h ++ map (fun n => Call n (kws n) (Ok (rets n))) a) (Call n (kws n) (Ok (rets n))) = Ok (rets n)) /\
  (exists d, returns root (h ++ round) Combine = Ok d /\ ((forall n, NoDup (keys (rets n))) -> forall q v, dget q d = Some v <-> exists n k, In n order /\ q = prefixed n k /\ dget k (rets n) = Some v)).
Proof.
  intros V root h order kws rets ND Hdot Hno NDo Hio HP round.
  assert (forall a b, order = a ++ b -> forall n r, pending root (h ++ map (fun n => Call n (kws n) (Ok (rets n))) a) n r <-> In n a /\ r = rets n) as PE.
  { intros a; induction a as [|x a IH] using rev_ind; intros b E n r.
    - simpl. rewrite app_nil_r. split; [intro H; now apply Hno in H|tauto].
    - rewrite <- app_assoc in E. simpl in E. specialize (IH (x :: b) E). rewrite map_app. simpl map at 2. rewrite app_assoc, pending_snoc.
      assert (In x order) as Hx by (rewrite E; apply in_or_app; right; now left).
      assert (~ In x a) as Hxa by (intro H; rewrite E in NDo; apply NoDup_remove_2 in NDo; apply NDo; apply in_or_app; now left).
      assert (no_char dot x = true) as Hdx by (rewrite Forall_forall in Hdot; apply Hdot; now apply Hio).
      destruct (C30_call V root (h ++ map (fun n => Call n (kws n) (Ok (rets n))) a) x (kws x) (Ok (rets x)) ND) as [C _]. destruct (C (proj1 (Hio x) Hx) Hdx) as [_ C2].
      assert (returns root (h ++ map (fun n => Call n (kws n) (Ok (rets n))) a) (Call x (kws x) (Ok (rets x))) = Ok (rets x)) as ER.
      { apply C2; [intros r0 H0; apply IH in H0; tauto|now apply HP]. }
      rewrite IH, in_app_iff. split.
      + intros [(kw & E1 & E2)|[[H1 H2] _]]; [|auto]. injection E1 as -> _ <-. split; [right; now left|reflexivity].
      + intros [[H|[<-|[]]] ->]; [right; split; [auto|discriminate]|]. left. eauto. }
  split.
  - intros a n b E. assert (In n order) as Hn by (rewrite E; apply in_or_app; right; now left). assert (~ In n a) as Hna by (intro H; rewrite E in NDo; apply NoDup_remove_2 in NDo; apply NDo; apply in_or_app; now left).
    destruct (C30_call V root (h ++ map (fun n => Call n (kws n) (Ok (rets n))) a) n (kws n) (Ok (rets n)) ND) as [C _]. destruct (C (proj1 (Hio n) Hn)) as [_ C2]; [rewrite Forall_forall in Hdot; apply Hdot; now apply Hio|].
    apply C2; [|now apply HP]. intros r0 H0. apply (PE a (n :: b) E) in H0. tauto.
  - destruct (C30_combine V root (h ++ round) ND Hdot) as (C1 & _ & C3). assert (order = order ++ []) as E0 by now rewrite app_nil_r.
    destruct (proj2 C1) as [d Ed]; [intros n Hn; exists (rets n); apply (PE order [] E0); split; [now apply Hio|reflexivity]|]. exists d. split; [assumption|].
    intros HR q v. destruct (C3 d Ed) as [_ C4]. rewrite C4.
    + split; [intros (n & k & r & Hp & H2)|intros (n & k & Hn & H2)].
      * apply (PE order [] E0) in Hp. destruct Hp as [Hp ->]. eauto.
      * exists n, k, (rets n). split; [apply (PE order [] E0); auto|assumption].
    + intros n r Hp. apply (PE order [] E0) in Hp. destruct Hp as [_ ->]. apply HR.
Qed.
Print Assumptions C30_round.

(** ** C33 *)
(** dictionary to vector: accepted exactly when every name of the group is given; the vector has the values in the order of the names, whatever the
    order in which they are given and whatever else is given *)
Theorem C33_make_vector : forall V names (kw : dict V),
  (forall v, make_vector names kw = Ok v <-> Forall2 (fun n a => dget n kw = Some a) names v) /\
  (forall e, make_vector names kw = Raise e <-> e = KeyError /\ ~ incl names (keys kw)).
Proof.
  intros V names kw. unfold make_vector. destruct (check_keys_ok names (keys kw)) as [C1 C2].
  assert (forall v, mapM (fun n => lookup_err n kw) names = Ok v <-> Forall2 (fun n a => dget n kw = Some a) names v) as M.
  { clear. induction names as [|n names IH]; intro v; simpl.
    - split; [intro H; injection H as <-; constructor|intro H; inversion H; reflexivity].
    - unfold lookup_err at 1. destruct (dget n kw) as [a|] eqn:E.
      + destruct (mapM _ names) as [r|] eqn:Er; split.
        * intro H. injection H as <-. constructor; [assumption|now apply IH].
        * intro H. inversion H as [|? b ? l Hb Hl]; subst. apply IH in Hl. congruence.
        * discriminate.
        * intro H. inversion H as [|? b ? l Hb Hl]; subst. apply IH in Hl. discriminate.
      + split; [discriminate|]. intro H. inversion H; subst. congruence. }
  assert (forall v, Forall2 (fun n a => dget n kw = Some a) names v -> incl names (keys kw)) as I.
  { clear. intros v H. induction H as [|n a l l' Hn H IH]; [intros ? []|]. intros x [<-|Hx]; [apply dget_some_iff; eauto|auto]. }
  unfold check_keys in *. destruct (forallb (fun n => mem n (keys kw)) names); cbn [bind].
  - split; [exact M|]. intro e. split.
    + intro H. exfalso. assert (incl names (keys kw)) as Hi by now apply C1. clear - H Hi. induction names as [|n names IH]; [discriminate|]. simpl in H. unfold lookup_err in H at 1.
      assert (In n (keys kw)) as Hn by (apply Hi; now left). apply dget_some_iff in Hn. destruct Hn as [a Ha]. rewrite Ha in H. destruct (mapM _ names) eqn:E; [discriminate|]. apply IH; [congruence|intros x Hx; apply Hi; now right].
    + intros [_ H]. exfalso. apply H. now apply C1.
  - split.
    + intro v. split; [discriminate|]. intro H. apply I in H. apply C1 in H. discriminate.
    + intro e. split; [intro H; injection H as <-; split; [reflexivity|now apply C2]|intros [-> _]; reflexivity].
Qed.
Print Assumptions C33_make_vector.
Lemma array_to_dict_ok : forall V names (v : list V), NoDup names -> List.length names <= List.length v -> array_to_dict names v = Ok (combine names v).
Proof.
  intros V names v ND L. unfold array_to_dict.
  assert (forall k (names : list string) v', v' = skipn k v -> List.length names <= List.length v' ->
    mapM (fun ni => match nth_error v (snd ni) with Some a => Ok (fst ni, a) | None => Raise IndexError end) (combine names (seq k (List.length names))) = Ok (combine names v')) as G.
  { clear ND L names. intros k names; revert k; induction names as [|n names IH]; intros k v' Ev Hl; [reflexivity|]. destruct v' as [|a v']; [simpl in Hl; lia|]. simpl in Hl.
    assert (nth_error v k = Some a /\ v' = skipn (S k) v) as [En Es].
    { clear - Ev. revert v Ev. induction k as [|k IH]; intros v Ev; [simpl in Ev; subst v; auto|]. destruct v as [|b v]; [discriminate|]. simpl in Ev. destruct (IH v Ev) as [A B]. split; [exact A|]. exact B. }
    cbn [List.length seq combine mapM snd fst]. rewrite En. rewrite (IH (S k) v' Es) by lia. reflexivity. }
  rewrite (G 0 names v eq_refl L). simpl. rewrite dict_of_list_nodup; [reflexivity|].
  assert (map fst (combine names v) = names) as ->; [|assumption]. clear ND G. revert v L. induction names as [|n names IH]; intros [|a v] L; simpl in *; try lia; try reflexivity. f_equal. apply IH. lia.
Qed.
Lemma keys_combine : forall V names (v : list V), List.length names <= List.length v -> keys (combine names v) = names.
Proof. intros V names; induction names as [|n names IH]; intros [|a v] L; simpl in *; try lia; try reflexivity. f_equal. apply IH. lia. Qed.
(** vector to dictionary and back *)
Theorem C33_round_trips : forall V names, NoDup names ->
  (forall v : list V, List.length v = List.length names -> exists d, array_to_dict names v = Ok d /\ keys d = names /\ make_vector names d = Ok v) /\
  (forall (kw : dict V) v, make_vector names kw = Ok v -> exists d, array_to_dict names v = Ok d /\ keys d = names /\ forall n, In n names -> dget n d = dget n kw) /\
  (forall v : list V, List.length v < List.length names -> array_to_dict names v = Raise IndexError).
Proof.
  intros V names ND. split; [|split].
  - intros v L. exists (combine names v). split; [apply array_to_dict_ok; [assumption|lia]|]. split; [apply keys_combine; lia|]. apply (C33_make_vector V names (combine names v)).
    assert (forall l (w : list V), List.length w = List.length l -> NoDup l -> Forall2 (fun n a => dget n (combine l w) = Some a) l w) as G; [|now apply G].
    clear. intros l; induction l as [|n l IH]; intros [|a w] L ND; try discriminate; constructor.
    + simpl. now rewrite String.eqb_refl.
    + apply NoDup_cons_iff in ND. destruct ND as [Hn ND]. specialize (IH w (eq_add_S _ _ L) ND). simpl in L.
      assert (forall l' w', Forall2 (fun n0 a0 => dget n0 (combine l w) = Some a0) l' w' -> ~ In n l' -> Forall2 (fun n0 a0 => dget n0 ((n, a) :: combine l w) = Some a0) l' w') as G; [|now apply G].
      intros l' w' F; induction F as [|x y l' w' Hx F IHF]; intro Hn'; constructor; [|apply IHF; intro; apply Hn'; now right]. simpl. destruct (String.eqb_spec x n) as [->|]; [exfalso; apply Hn'; now left|assumption].
  - intros kw v E. apply (C33_make_vector V names kw) in E. assert (List.length v = List.length names) as L by (clear ND; induction E; simpl; congruence). exists (combine names v).
    split; [apply array_to_dict_ok; [assumption|lia]|]. split; [apply keys_combine; lia|]. clear L. induction E as [|x a l v Hx E IH]; intros n Hn; [destruct Hn|]. apply NoDup_cons_iff in ND. destruct ND as [Hx' ND]. simpl. destruct (String.eqb_spec n x) as [->|Hne]; [congruence|].
    apply IH; [assumption|]. destruct Hn; [congruence|assumption].
  - intros v L. unfold array_to_dict. assert (forall k, k + List.length names > List.length v -> names <> [] -> mapM (fun ni => match nth_error v (snd ni) with Some a => Ok (fst ni, a) | None => Raise IndexError end) (combine names (seq k (List.length names))) = Raise IndexError) as G.
    { clear. induction names as [|n names IH]; intros k Hk Hne; [congruence|]. cbn [List.length seq combine mapM snd fst]. destruct (nth_error v k) as [a|] eqn:E; [|reflexivity].
      assert (k < List.length v) by (apply nth_error_Some; congruence). simpl in Hk. rewrite IH; [reflexivity|lia|]. intros ->. simpl in Hk. lia. }
    rewrite (G 0); [reflexivity|lia|]. intros ->. simpl in L. lia.
Qed.
Print Assumptions C33_round_trips.

(** positions: the index of a name in its group is its place in the group vector, and its index in the flat vector is its place there *)
Lemma offset_split : forall V (nm : string -> list string) gs g off (x : list V) p, offset_of nm gs g = Ok off -> gs <> [] ->
  List.length x = List.length (flat_map nm gs) -> dget g (combine gs (split_sizes (map (fun g => List.length (nm g)) gs) x)) = Some p ->
  List.length p = List.length (nm g) /\ forall i, i < List.length (nm g) -> nth_error p i = nth_error x (i + off).
Proof.
  intros V nm gs; induction gs as [|h gs IH]; intros g off x p EO Hne L Eg; [congruence|]. simpl in EO. destruct (String.eqb_spec g h) as [->|Hgh].
  - injection EO as <-. destruct gs as [|h2 gs].
    + simpl in Eg, L. rewrite String.eqb_refl in Eg. injection Eg as <-. rewrite app_nil_r in L. split; [assumption|]. intros i _. now rewrite Nat.add_0_r.
    + cbn [map split_sizes combine dget] in Eg. rewrite String.eqb_refl in Eg. injection Eg as <-. simpl in L. rewrite app_length in L. split; [rewrite firstn_length; lia|]. intros i Hi. rewrite Nat.add_0_r. 
      rewrite <- (firstn_skipn (List.length (nm h)) x) at 2. rewrite nth_error_app1; [reflexivity|]. rewrite firstn_length. lia.
  - destruct (offset_of nm gs g) as [off'|] eqn:E'; [|discriminate]. simpl in EO. injection EO as <-. destruct gs as [|h2 gs]; [discriminate|].
    assert (dget g (combine (h2 :: gs) (split_sizes (map (fun g => List.length (nm g)) (h2 :: gs)) (skipn (List.length (nm h)) x))) = Some p) as Eg'.
    { cbn [map split_sizes combine dget] in Eg |- *. apply String.eqb_neq in Hgh. rewrite Hgh in Eg. exact Eg. }
    change (flat_map nm (h :: h2 :: gs)) with (nm h ++ flat_map nm (h2 :: gs)) in L. rewrite app_length in L.
    destruct (IH g off' (skipn (List.length (nm h)) x) p E') as [I1 I2]; [discriminate|rewrite skipn_length; lia|exact Eg'|]. split; [assumption|]. intros i Hi. rewrite (I2 i Hi).
    rewrite <- (firstn_skipn (List.length (nm h)) x) at 2. rewrite nth_error_app2; rewrite firstn_length; [|lia]. f_equal. lia.
Qed.
Theorem C33_positions : forall V nm g n (x : list V), In g flat_groups -> List.length x = num_implicit_var nm ->
  (In n (nm g) -> exists i j p, get_var_index (nm g) n = Ok i /\ nth_error (nm g) i = Some n /\ get_var_index_in_flat nm g n = Ok j /\ j < num_implicit_var nm /\
     dget g (split_flat nm x) = Some p /\ List.length p = List.length (nm g) /\ nth_error p i = nth_error x j) /\
  (~ In n (nm g) -> get_var_index (nm g) n = Raise KeyError /\ get_var_index_in_flat nm g n = Raise KeyError).
Proof.
  intros V nm g n x Hg L. split.
  - intro Hn. destruct (index_of_in n (nm g) Hn) as [i Ei]. destruct (index_of_lt _ _ _ Ei) as [Hi Ni].
    assert (exists off, offset_of nm flat_groups g = Ok off) as [off Eo].
    { unfold flat_groups in *. simpl. destruct Hg as [<-|[<-|[<-|[<-|[]]]]]; simpl; eauto. }
    assert (exists p, dget g (split_flat nm x) = Some p) as [p Ep].
    { unfold split_flat, flat_groups in *. simpl. destruct Hg as [<-|[<-|[<-|[<-|[]]]]]; simpl; eauto. }
    destruct (offset_split V nm flat_groups g off x p Eo ltac:(discriminate) L Ep) as [Lp Hp].
    exists i, (i + off), p. unfold get_var_index_in_flat, get_var_index. rewrite Ei. cbn [bind]. rewrite Eo. simpl. split; [reflexivity|]. split; [assumption|]. split; [reflexivity|]. split; [|split; [assumption|split; [assumption|now apply Hp]]].
    rewrite <- L. apply nth_error_Some. rewrite <- (Hp i Hi). apply nth_error_Some. lia.
  - intro Hn. unfold get_var_index_in_flat, get_var_index. destruct (index_of n (nm g)) eqn:E; [|auto]. exfalso. apply Hn. destruct (index_of_lt _ _ _ E) as [_ X]. eapply nth_error_In; eauto.
Qed.
Print Assumptions C33_positions.
(** different variables have different places *)
Theorem C33_positions_injective : forall nm g n g' n' j, (forall g, In g flat_groups -> NoDup (nm g)) -> In g flat_groups -> In g' flat_groups ->
  get_var_index_in_flat nm g n = Ok j -> get_var_index_in_flat nm g' n' = Ok j -> g = g' /\ n = n'.
Proof.
  intros nm g n g' n' j ND Hg Hg' E E'. unfold get_var_index_in_flat, get_var_index in *. destruct (index_of n (nm g)) as [i|] eqn:Ei; [|discriminate]. destruct (index_of n' (nm g')) as [i'|] eqn:Ei'; [|discriminate].
  destruct (index_of_lt _ _ _ Ei) as [Hi Ni]. destruct (index_of_lt _ _ _ Ei') as [Hi' Ni']. cbn [bind] in E, E'.
  assert (g = g') as <-.
  { unfold flat_groups in *. simpl in E, E'. destruct Hg as [<-|[<-|[<-|[<-|[]]]]]; destruct Hg' as [<-|[<-|[<-|[<-|[]]]]]; simpl in E, E'; try reflexivity; injection E as E; injection E' as E'; exfalso; lia. }
  split; [reflexivity|]. destruct (offset_of nm flat_groups g); [|discriminate]. simpl in E, E'. injection E as <-. injection E' as E'. assert (i' = i) as -> by lia. congruence.
Qed.
Print Assumptions C33_positions_injective.

(** ** The outputs of a composite model *)
(** when every submodel has been called and returned at least its declared outputs, and the model gives its own direct outputs, [make_outputs_dict]
    succeeds: the result has every declared output of the model (own ones as given, those of submodels under their prefix) and a new round can start *)
Theorem C30_outputs : forall V root m (h : list (cop V)) kw, NoDup (keys (sm_subs root)) -> Forall (fun n => no_char dot n = true) (keys (sm_subs root)) -> keys (mio_subs m) = keys (sm_subs root) ->
  NoDup (keys kw) -> (forall n r, pending root h n r -> NoDup (keys r)) -> incl (d_outputs (mio_direct m)) (keys kw) ->
  (forall n sub, In (n, sub) (mio_subs m) -> exists r, pending root h n r /\ incl (outputs_of sub) (keys r)) ->
  (forall n r k, pending root h n r -> In k (keys r) -> ~ In (prefixed n k) (keys kw)) ->
  exists d, make_outputs_dict root (outputs_of m) (crun root h) kw = (clear_buffer root, Ok d) /\ incl (outputs_of m) (keys d) /\
    (forall k, In k (keys kw) -> dget k d = dget k kw) /\ (forall n r k, pending root h n r -> In k (keys r) -> dget (prefixed n k) d = dget k r).
Proof.
  intros V root m h kw ND Hdot HK NDk HR Hown Hsub Hdis. destruct (C30_combine V root h ND Hdot) as (C1 & _ & C3).
  assert (forall n, In n (keys (sm_subs root)) -> exists r, pending root h n r) as HA.
  { intros n Hn. rewrite <- HK in Hn. apply dget_some_iff in Hn. destruct Hn as [sub Es]. destruct (Hsub n sub (dget_in _ _ _ _ Es)) as (r & Hr & _). eauto. }
  destruct (proj2 C1 HA) as [d0 Ed]. destruct (C3 d0 Ed) as [_ C4]. specialize (C4 HR).
  unfold make_outputs_dict. change (snd (combine_outputs root (crun root h)) = Ok d0) in Ed.
  assert (NoDup (keys (crun root h))) as NDb by (now rewrite keys_crun). destruct (combine_spec root _ NDb) as (_ & _ & D3). specialize (D3 d0 Ed).
  destruct (combine_outputs root (crun root h)) as [b' o]. simpl in Ed, D3. subst o b'.
  assert (forall n r k, pending root h n r -> In k (keys r) -> dget (prefixed n k) d0 = dget k r) as Hd0.
  { intros n r k Hp Hk. apply dget_some_iff in Hk. destruct Hk as [v Hv]. rewrite Hv. apply C4. eauto 6. }
  assert (existsb (fun k => mem k (keys d0)) (keys kw) = false) as ->.
  { destruct (existsb _ _) eqn:E; [|reflexivity]. apply existsb_exists in E. destruct E as (k & Hk & Hm). apply mem_In, dget_some_iff in Hm. destruct Hm as [v Hv]. apply C4 in Hv. destruct Hv as (n & k' & r & Hp & -> & Hk').
    exfalso. apply (Hdis n r k' Hp); [apply dget_some_iff; eauto|assumption]. }
  assert (incl (outputs_of m) (keys (kw ++ d0))) as HI.
  { destruct m as [dd s]. intros q Hq. cbn [outputs_of] in Hq. unfold keys. rewrite map_app. apply in_or_app. apply in_app_or in Hq. destruct Hq as [Hq|Hq]; [left; apply Hown; exact Hq|right].
    apply in_flat_map in Hq. destruct Hq as ([n sub] & Hin & Hq). apply in_map_iff in Hq. destruct Hq as (k & <- & Hk). destruct (Hsub n sub Hin) as (r & Hp & Hi). specialize (Hi k Hk).
    change (In (prefixed n k) (keys d0)). apply dget_some_iff. rewrite (Hd0 n r k Hp Hi). now apply dget_some_iff. }
  exists (kw ++ d0). split; [|split; [assumption|split]].
  - f_equal. unfold make_dict. rewrite (proj2 (proj1 (check_keys_ok _ _)) HI). reflexivity.
  - intros k Hk. rewrite dget_app. apply dget_some_iff in Hk. destruct Hk as [v ->]. reflexivity.
  - intros n r k Hp Hk. rewrite dget_app. assert (dget (prefixed n k) kw = None) as -> by (apply dget_none; now apply (Hdis n r k)). now apply Hd0.
Qed.
Print Assumptions C30_outputs.

(** a state space model is accepted only if its constrained outputs and its (and its submodels') residuals are outputs; otherwise ValueError *)
Theorem C33_checked_names : forall m, (check_names m = Ok tt \/ check_names m = Raise ValueError) /\
  (check_names m = Ok tt -> d_ss (mio_direct m) = true -> incl (d_con (mio_direct m)) (outputs_of m) /\ incl (residuals_of m) (outputs_of m)) /\
  (d_ss (mio_direct m) = true -> ~ (incl (d_con (mio_direct m)) (outputs_of m) /\ incl (residuals_of m) (outputs_of m)) -> check_names m = Raise ValueError).
Proof.
  assert (forall l o, forallb (fun c => mem c o) l = true <-> incl l o) as FI.
  { intros l o. rewrite forallb_forall. unfold incl. split; intros H a Ha; specialize (H a Ha); now apply mem_In. }
  fix IH 1. intros [d s]. cbn [check_names].
  assert (forall l, (fix loop (l : list (string * mio)) := match l with [] => Ok tt | (_, sm) :: r => bind (check_names sm) (fun _ => loop r) end) l = Ok tt \/
     (fix loop (l : list (string * mio)) := match l with [] => Ok tt | (_, sm) :: r => bind (check_names sm) (fun _ => loop r) end) l = Raise ValueError) as L.
  { induction l as [|[n sm] l IHl]; [now left|]. destruct (proj1 (IH sm)) as [->| ->]; [exact IHl|now right]. }
  destruct (L s) as [->| ->]; cbn [bind].
  - destruct (d_ss d) eqn:Es; cbn [negb mio_direct]; [|rewrite Es; split; [now left|split; [discriminate|discriminate]]]. rewrite Es.
    pose proof (FI (d_con d) (outputs_of (MIO d s))) as F1. pose proof (FI (residuals_of (MIO d s)) (outputs_of (MIO d s))) as F2.
    destruct (forallb (fun c => mem c (outputs_of (MIO d s))) (d_con d)); cbn [negb].
    + destruct (forallb (fun c => mem c (outputs_of (MIO d s))) (residuals_of (MIO d s))); cbn [negb].
      * split; [now left|]. split; [intros _ _; split; [now apply F1|now apply F2]|]. intros _ H. exfalso. apply H. split; [now apply F1|now apply F2].
      * split; [now right|]. split; [discriminate|reflexivity].
    + split; [now right|]. split; [discriminate|reflexivity].
  - split; [now right|]. split; [discriminate|reflexivity].
Qed.
Print Assumptions C33_checked_names.

(** *** concrete cases *)
Definition ex_root : sm := SM true [] [] [("aero", SM false ["v"] [] []); ("engine", SM true ["thr"] ["w"] [])].
Definition kw_aero : dict (list string) := [("inputs", ["v"; "extra"])].
Definition kw_eng : dict (list string) := [("inputs", ["thr"]); ("states", ["w"])].
Example C30_nonvacuous : NoDup (keys (sm_subs ex_root)) /\ Forall (fun n => no_char dot n = true) (keys (sm_subs ex_root)) /\ proper ex_root "aero" kw_aero /\ proper ex_root "engine" kw_eng /\ 
  ~ proper ex_root "engine" kw_aero /\
  returns ex_root [Call "engine" kw_eng (Ok [("power", 7)]); Call "aero" kw_aero (Ok [("drag", 3); ("lift", 4)])] Combine = Ok [("aero.drag", 3); ("aero.lift", 4); ("engine.power", 7)] /\
  returns ex_root [Call "engine" kw_eng (Ok [("power", 7)])] (Call "engine" kw_eng (Ok [("power", 8)])) = Raise RuntimeError /\
  returns ex_root [Call "engine" kw_eng (Ok [("power", 7)])] Combine = Raise KeyError.
Proof.
  split; [repeat constructor; simpl; intuition discriminate|]. split; [repeat constructor|]. split; [|split; [|split; [|repeat split; reflexivity]]].
  - exists false, ["v"], [], []. split; [reflexivity|]. split; [exists ["v"; "extra"]; split; [reflexivity|intros x [<-|[]]; now left]|discriminate].
  - exists true, ["thr"], ["w"], []. split; [reflexivity|]. split; [exists ["thr"]; split; [reflexivity|apply incl_refl]|]. intros _. exists ["w"]. split; [reflexivity|apply incl_refl].
  - intros (ss & i & s & l & E & (g & Eg & Hi) & _). injection E as <- <- <- <-. injection Eg as <-. specialize (Hi "thr" (or_introl eq_refl)). simpl in Hi. intuition discriminate.
Qed.
(** *** What fails: a round that was interrupted by an exception breaks the next one, although nothing is wrong with it *)
Theorem C30_interrupted_round_refuted : exists h : list (cop nat), (exists e, returns ex_root [Call "aero" kw_aero (Ok [("drag", 3)])] (Call "engine" kw_eng (Raise e)) = Raise e /\
  h = [Call "aero" kw_aero (Ok [("drag", 3)]); Call "engine" kw_eng (Raise e)]) /\ forall out, returns ex_root h (Call "aero" kw_aero out) = Raise RuntimeError.
Proof. eexists. split; [exists ZeroDivisionError; split; reflexivity|]. reflexivity. Qed.

Definition ex_nm (g : string) : list string := match g with "states" => ["x"; "y"] | "states_dot" => ["x"; "y"] | "inputs" => ["u"] | "con_outputs" => ["c"] | _ => [] end.
Example C33_nonvacuous : NoDup (ex_nm "states") /\ make_vector (ex_nm "states") [("y", 2); ("z", 3); ("x", 1)] = Ok [1; 2] /\ make_vector (ex_nm "states") [("y", 2)] = Raise KeyError /\
  array_to_dict (ex_nm "states") [1; 2] = Ok [("x", 1); ("y", 2)] /\ get_var_index_in_flat ex_nm "states_dot" "y" = Ok 4 /\ num_implicit_var ex_nm = 6 /\
  dget "states_dot" (split_flat ex_nm [10; 11; 12; 13; 14; 15]) = Some [13; 14] /\
  check_names (MIO {| d_ss := true; d_states := ["x"]; d_inputs := []; d_outputs := ["o"]; d_con := ["aero.drag"]; d_res := [] |} [("aero", MIO {| d_ss := false; d_states := []; d_inputs := []; d_outputs := ["drag"]; d_con := []; d_res := [] |} [])]) = Ok tt /\
  check_names (MIO {| d_ss := true; d_states := ["x"]; d_inputs := []; d_outputs := ["o"]; d_con := ["drag"]; d_res := [] |} [("aero", MIO {| d_ss := false; d_states := []; d_inputs := []; d_outputs := ["drag"]; d_con := []; d_res := [] |} [])]) = Raise ValueError.
Proof. split; [repeat constructor; simpl; intuition discriminate|]. repeat split; reflexivity. Qed.
(** make_const_dict: every listed name, in the order of the list and once, with the given value; nothing else *)
Theorem C33_const_dict : forall V names (v : V), NoDup names -> make_const_dict names v = map (fun n => (n, v)) names /\
  (forall n, In n names -> dget n (make_const_dict names v) = Some v) /\ (forall n, ~ In n names -> dget n (make_const_dict names v) = None).
Proof.
  intros V names v ND. assert (make_const_dict names v = map (fun n => (n, v)) names) as E.
  { unfold make_const_dict. apply dict_of_list_nodup. rewrite map_map. cbn [fst]. now rewrite map_id. }
  assert (keys (make_const_dict names v) = names) as K by (rewrite E; unfold keys; rewrite map_map; cbn [fst]; apply map_id).
  split; [exact E|]. split.
  - intros n Hn. apply in_dget; [rewrite K; exact ND|]. rewrite E. apply in_map_iff. exists n. auto.
  - intros n Hn. destruct (dget n (make_const_dict names v)) as [w|] eqn:G; [|reflexivity]. exfalso. apply Hn. rewrite <- K. apply dget_some_iff. eauto.
Qed.
Print Assumptions C33_const_dict.

(** the output and residual names of a model are those declared in it and, with their path, in its submodels at any depth *)
Theorem C33_full_names : forall m q, (In q (outputs_of m) <-> declared d_outputs m q) /\ (In q (residuals_of m) <-> declared d_res m q).
Proof.
  assert (forall (f : mio -> list string) sel, (forall d s, f (MIO d s) = sel d ++ flat_map (fun ns => map (prefixed (fst ns)) (f (snd ns))) s) -> forall m q, In q (f m) <-> declared sel m q) as G.
  { intros f sel Ef. split.
    - revert q. revert m. fix IH 1. intros [d s] q. rewrite Ef. intro H. apply in_app_iff in H. destruct H as [H|H]; [now apply declared_here|].
      assert (exists k m n, In (k, m) s /\ declared sel m n /\ prefixed k n = q) as (k & m & n & H1 & H2 & <-); [|now apply declared_below with (m := m)].
      revert s H. fix IH2 1. intros [|[k m] s] H; [contradiction|]. cbn [flat_map fst snd] in H. apply in_app_iff in H. destruct H as [H|H].
      + apply in_map_iff in H. destruct H as (n & E & H). exists k, m, n. split; [now left|]. split; [exact (IH m n H)|exact E].
      + destruct (IH2 s H) as (k' & m' & n & H1 & H2). exists k', m', n. split; [now right|exact H2].
    - intro H. induction H as [d s n H|d s k m n H _ IH]; rewrite Ef; apply in_app_iff; [now left|right]. apply in_flat_map. exists (k, m). split; [assumption|].
      apply in_map_iff. exists n. split; [reflexivity|exact IH]. }
  intros m q. split; apply G; reflexivity.
Qed.
Print Assumptions C33_full_names.
Example C33_full_names_nonvacuous : let tire := MIO {| d_ss := false; d_states := []; d_inputs := []; d_outputs := ["Fx"]; d_con := []; d_res := ["r"] |} [] in
  let car := MIO {| d_ss := true; d_states := []; d_inputs := []; d_outputs := ["ax"]; d_con := []; d_res := [] |} [("fl", tire)] in
  declared d_res (MIO {| d_ss := true; d_states := []; d_inputs := []; d_outputs := []; d_con := []; d_res := [] |} [("car", car)]) "car.fl.r" /\ outputs_of car = ["ax"; "fl.Fx"].
Proof. split; [|reflexivity]. apply declared_below with (k := "car") (n := "fl.r") (1 := or_introl eq_refl). apply declared_below with (k := "fl") (n := "r") (1 := or_introl eq_refl). apply declared_here. now left. Qed.
