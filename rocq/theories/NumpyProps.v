(** C36 and C37: backend selection; mapping over a batch. *)
From Verif Require Import Base RBase UtilsModel UtilsProofs UtilsProofs2 NumpyModel NumpySpec.

(** ** C36 *)
Lemma set_valid : forall c b, valid b -> set_backend c b = b.
Proof. intros c b H. unfold set_backend. assert (existsb (String.eqb b) backends = true) as ->; [|reflexivity]. apply existsb_exists. exists b. split; [exact H|apply String.eqb_refl]. Qed.
Lemma set_invalid : forall c b, ~ valid b -> set_backend c b = c.
Proof. intros c b H. unfold set_backend. destruct (existsb _ _) eqn:E; [|reflexivity]. apply existsb_exists in E. destruct E as (x & Hx & E). apply String.eqb_eq in E. subst x. contradiction. Qed.
Lemma valid_dec : forall b, {valid b} + {~ valid b}.
Proof. intro b. apply in_dec. apply string_dec. Qed.
Lemma set_is_valid : forall c b, valid c -> valid (set_backend c b).
Proof. intros c b H. destruct (valid_dec b); [now rewrite set_valid|now rewrite set_invalid]. Qed.

Definition rloop (p : prog) := (fix loop n s := match n with O => (s, false) | S m => let (s', e) := exec p s in if e then (s', true) else loop m s' end).
Lemma exec_repeat : forall n p s, exec (Repeat n p) s = rloop p n s.
Proof. reflexivity. Qed.
Lemma rloop_S : forall p n s, rloop p (S n) s = let (s', e) := exec p s in if e then (s', true) else rloop p n s'.
Proof. reflexivity. Qed.

(** a state in which the current backend and those remembered by objects are valid: true initially, and kept by every program *)
Definition st_ok (s : bst) : Prop := valid (cur s) /\ forall v c, dget v (objs s) = Some c -> valid (cm_original c).
Lemma st_ok_with : forall s b, st_ok s -> valid b -> st_ok (with_cur s b).
Proof. intros s b [H1 H2] Hb. split; assumption. Qed.
Lemma exec_ok : forall p s, st_ok s -> st_ok (fst (exec p s)).
Proof.
  induction p as [| | |b|p IHp q IHq|p IHp q IHq|n p IHp|b p IHp|v b|v p IHp]; intros s [H1 H2]; try (split; assumption).
  - cbn. apply st_ok_with; [split; assumption|now apply set_is_valid].
  - cbn [exec]. specialize (IHp s (conj H1 H2)). destruct (exec p s) as [s' [|]]; [assumption|now apply IHq].
  - cbn [exec]. specialize (IHp s (conj H1 H2)). destruct (exec p s) as [s' [|]]; [now apply IHq|assumption].
  - rewrite exec_repeat. assert (st_ok s) as K by (split; assumption). clear H1 H2. revert s K. induction n as [|n IHn]; intros s K; [assumption|]. rewrite rloop_S. specialize (IHp s K). destruct (exec p s) as [s' [|]]; [assumption|now apply IHn].
  - cbn [exec]. assert (st_ok (with_cur s (set_backend (cur s) b))) as K by (apply st_ok_with; [split; assumption|now apply set_is_valid]). specialize (IHp _ K). destruct (exec p _) as [s' e]. cbn [fst] in *. apply st_ok_with; [assumption|]. apply set_is_valid. apply IHp.
  - cbn. split; [assumption|]. cbn. intros v' c. destruct (string_dec v' v) as [->|Hne]; [rewrite dget_dset_same; intros [= <-]; assumption|rewrite dget_dset_other by congruence; apply H2].
  - cbn [exec]. destruct (dget v (objs s)) as [c|] eqn:Ec; [|split; assumption]. assert (st_ok (with_cur s (set_backend (cur s) (cm_target c)))) as K by (apply st_ok_with; [split; assumption|now apply set_is_valid]).
    specialize (IHp _ K). destruct (exec p _) as [s' e]. cbn [fst] in *. apply st_ok_with; [assumption|]. apply set_is_valid. apply IHp.
Qed.

(** whatever the body does (set_backend calls, other blocks, decorated functions, exceptions): it starts under the block's backend, and after the block
    the backend is the one before the block; in every state a program can reach *)
Theorem C36_block_restores : forall p0 b p, let s := fst (exec p0 bst0) in
  let inside := {| cur := if valid_dec b then b else cur s; objs := objs s; seen := seen s |} in
  cur (fst (exec (With b p) s)) = cur s /\ seen (fst (exec (With b p) s)) = seen (fst (exec p inside)) /\ snd (exec (With b p) s) = snd (exec p inside) /\ valid (cur s).
Proof.
  intros p0 b p s. assert (st_ok s) as [H1 _] by (apply exec_ok; split; [cbn; right; left; reflexivity|discriminate]).
  cbn [exec]. unfold with_cur. replace (set_backend (cur s) b) with (if valid_dec b then b else cur s) by (destruct (valid_dec b); [now rewrite set_valid|now rewrite set_invalid]).
  destruct (exec p _) as [s' e]. cbn. split; [now apply set_valid|auto].
Qed.
Print Assumptions C36_block_restores.

(** every program built from fresh blocks behaves lexically: what it observes, leaves behind and raises is what [means] says, and [means] determines it *)
Theorem C36_lexical : forall p s, fresh_blocks p -> valid (cur s) ->
  exists o, seen (fst (exec p s)) = seen s ++ o /\ means (cur s) p o (cur (fst (exec p s))) (snd (exec p s)) /\ objs (fst (exec p s)) = objs s.
Proof.
  assert (forall b c p o b1 e, means (set_backend b c) p o b1 e -> means b (With c p) o b e) as MW.
  { intros b c p o b1 e H. destruct (valid_dec c); [rewrite set_valid in H by assumption; eapply M_with_valid; eauto|rewrite set_invalid in H by assumption; eapply M_with_invalid; eauto]. }
  induction p as [| | |b|p IHp q IHq|p IHp q IHq|n p IHp|b p IHp|v b|v p IHp]; intros s F V; try contradiction.
  - exists []. rewrite app_nil_r. repeat split. constructor.
  - exists [cur s]. repeat split. constructor.
  - exists []. rewrite app_nil_r. repeat split. constructor.
  - exists []. rewrite app_nil_r. cbn. repeat split. destruct (valid_dec b); [rewrite set_valid by assumption|rewrite set_invalid by assumption]; now constructor.
  - destruct F as [Fp Fq]. cbn [exec]. destruct (IHp s Fp V) as (o1 & E1 & M1 & O1). assert (valid (cur (fst (exec p s)))) as V1.
    { assert (st_ok {| cur := cur s; objs := []; seen := seen s |}) as K by (split; [assumption|discriminate]). clear -M1 V. induction M1; auto. }
    destruct (exec p s) as [s' [|]]; cbn [fst snd] in *; [exists o1; repeat split; [assumption|now apply M_seq_raise|assumption]|].
    destruct (IHq s' Fq V1) as (o2 & E2 & M2 & O2). exists (o1 ++ o2). rewrite E2, E1, app_assoc. repeat split; [eapply M_seq; eauto|congruence].
  - destruct F as [Fp Fq]. cbn [exec]. destruct (IHp s Fp V) as (o1 & E1 & M1 & O1). assert (valid (cur (fst (exec p s)))) as V1 by (clear -M1 V; induction M1; auto).
    destruct (exec p s) as [s' [|]]; cbn [fst snd] in *; [|exists o1; repeat split; [assumption|now apply M_try|assumption]].
    destruct (IHq s' Fq V1) as (o2 & E2 & M2 & O2). exists (o1 ++ o2). rewrite E2, E1, app_assoc. repeat split; [eapply M_try_raise; eauto|congruence].
  - rewrite exec_repeat. cbn in F. revert s V. induction n as [|n IHn]; intros s V; [exists []; rewrite app_nil_r; repeat split; constructor|]. rewrite rloop_S. destruct (IHp s F V) as (o1 & E1 & M1 & O1). assert (valid (cur (fst (exec p s)))) as V1 by (clear -M1 V; induction M1; auto).
    destruct (exec p s) as [s' [|]]; cbn [fst snd] in *; [exists o1; repeat split; [assumption|now apply M_repeat_raise|assumption]|].
    destruct (IHn s' V1) as (o2 & E2 & M2 & O2). exists (o1 ++ o2). rewrite E2, E1, app_assoc. repeat split; [eapply M_repeat; eauto|congruence].
  - cbn [exec]. cbn in F. destruct (IHp (with_cur s (set_backend (cur s) b)) F ltac:(now apply set_is_valid)) as (o & E & M & O). destruct (exec p _) as [s' e]. cbn [fst snd] in *. exists o. cbn. rewrite set_valid by assumption. repeat split; [assumption|eapply MW; exact M|assumption].
Qed.
Print Assumptions C36_lexical.
Theorem C36_lexical_unique : forall b p o b1 e, means b p o b1 e -> forall o' b1' e', means b p o' b1' e' -> o = o' /\ b1 = b1' /\ e = e'.
Proof.
  intros b p o b1 e M. induction M; intros o' b1' e' M'; repeat match goal with I : (forall o' b1' e', means ?b ?p o' b1' e' -> ?o = o' /\ _), H : means ?b ?p ?o _ _ |- _ => clear H end; inversion M'; subst; try contradiction; auto;
    repeat match goal with H : means ?b ?p ?o ?b1 ?e, I : forall o' b1' e', means ?b ?p o' b1' e' -> _ |- _ => destruct (I _ _ _ H) as (? & ? & ?); clear I; subst; try discriminate end; auto.
Qed.
Print Assumptions C36_lexical_unique.

(** a context object that was created before it is entered (as a decorator always is) gives back the backend of its creation, in every state a program can reach *)
Theorem C36_object : forall p0 v b p1 p, let s := fst (exec p0 bst0) in let s1 := fst (exec (Seq (New v b) p1) s) in
  (forall c, dget v (objs (fst (exec (New v b) s))) = Some c -> dget v (objs s1) = Some c) ->
  cur (fst (exec (WithObj v p) s1)) = cur s.
Proof.
  intros p0 v b p1 p s s1 H. assert (st_ok s) as [H1 _] by (apply exec_ok; split; [cbn; right; left; reflexivity|discriminate]).
  cbn [exec]. rewrite (H _ (dget_dset_same _ _ _ _)). destruct (exec p _) as [s' e]. cbn. now apply set_valid.
Qed.
Print Assumptions C36_object.
(** so a decorated function called while another backend is selected leaves the wrong backend behind *)
Theorem C36_decorator_refuted : 
  seen (fst (exec (Seq (New "f" "jax") (Seq (SetB "casadi") (Seq Observe (Seq (WithObj "f" Observe) Observe)))) bst0)) = ["casadi"; "jax"; "numpy"].
Proof. reflexivity. Qed.
Example C36_nonvacuous : fresh_blocks (Try (With "jax" (Seq Observe (With "casadi" (Seq Observe (Seq (SetB "numpy") Throw))))) (Seq Observe (With "tensorflow" Observe))) /\
  exec (Try (With "jax" (Seq Observe (With "casadi" (Seq Observe (Seq (SetB "numpy") Throw))))) (Seq Observe (With "tensorflow" Observe))) bst0 =
  ({| cur := "numpy"; objs := []; seen := ["jax"; "casadi"; "numpy"; "numpy"] |}, false).
Proof. split; [repeat split|reflexivity]. Qed.

(** ** C37 *)
Section LMap.
Context {A P : Type}.
Implicit Types (args : list (arg A P)).
Lemma sample_at : forall i args ax, List.length ax = List.length args -> forall s, sample_args i args ax = Ok s <-> at_sample i args ax s.
Proof using.
  intros i args. unfold sample_args. induction args as [|a args IH]; intros [|b ax] L s; simpl in L; try discriminate; cbn [combine mapM].
  - split; [intros [= <-]; constructor|intro H; inversion H; reflexivity].
  - cbn [fst snd]. destruct (sample_arg i a b) as [v|e] eqn:Es; unfold sample_arg in Es.
    + destruct (mapM (fun am => sample_arg i (fst am) (snd am)) (combine args ax)) as [vs|e] eqn:Er.
      * split.
        -- intros [= <-]. apply IH in Er; [|lia]. destruct b; [|injection Es as <-; now constructor]. destruct a as [|l|t]; try discriminate. destruct (nth_error l i) as [w|] eqn:Ew; [|discriminate]. injection Es as <-. now constructor.
        -- intro H. inversion H as [|l w args' ax' s' Hn Hr|a' args' ax' s' Hr]; subst.
           ++ rewrite Hn in Es. injection Es as <-. apply IH in Hr; [|lia]. rewrite Hr in Er. injection Er as <-. reflexivity.
           ++ injection Es as <-. apply IH in Hr; [|lia]. rewrite Hr in Er. injection Er as <-. reflexivity.
      * split; [discriminate|]. intro H. inversion H as [|l w args' ax' s' Hn Hr|a' args' ax' s' Hr]; subst; apply IH in Hr; try lia; rewrite Hr in Er; discriminate.
    + split; [discriminate|]. intro H. inversion H as [|l w args' ax' s' Hn Hr|a' args' ax' s' Hr]; subst; [rewrite Hn in Es; discriminate|discriminate].
Qed.
Lemma stack_rows_ok : forall vs k, vs <> [] -> Forall (fun v => List.length v = k) vs -> stack_rows vs = Ok vs.
Proof using.
  intros [|v vs] k H F; [contradiction|]. unfold stack_rows. inversion F; subst. assert (forallb (fun w => Nat.eqb (List.length w) (List.length v)) vs = true) as ->; [|reflexivity].
  apply forallb_forall. intros w Hw. apply Nat.eqb_eq. rewrite Forall_forall in H3. now apply H3.
Qed.
End LMap.

(** every mapped function returns, for every sample, what the function returns on the arguments of that sample (mapped arguments indexed, the others whole);
    the number of samples is that of the first argument that is not None *)
Theorem C37_lmap : forall A P (fn : list (sarg A P) -> result out) ax (args : list (arg A P)) n l0 pre post (F : nat -> list R) k,
  List.length ax = List.length args -> args = pre ++ Arr l0 :: post -> Forall (fun a => a = ANone) pre -> List.length l0 = n -> (0 < n)%nat ->
  (forall i, (i < n)%nat -> exists s, at_sample i args ax s /\ fn s = Ok (OArr (F i)) /\ List.length (F i) = k) ->
  exists rows, lmap fn (AxList ax) args = Ok (MArr rows) /\ List.length rows = n /\ forall i, (i < n)%nat -> nth_error rows i = Some (F i).
Proof.
  intros A P fn ax args n l0 pre post F k L Ea Hpre L0 Hn HF. unfold lmap, full_axes. rewrite L, Nat.eqb_refl. cbn [bind].
  assert (batch_size args = Ok n) as ->.
  { unfold batch_size. rewrite Ea. clear -Hpre L0. induction pre as [|a pre IH]; [simpl; now rewrite L0|]. inversion Hpre; subst. simpl. now apply IH. }
  cbn [bind]. assert (mapM (fun idx => bind (sample_args idx args ax) fn) (seq 0 n) = Ok (map (fun i => OArr (F i)) (seq 0 n))) as ->.
  { assert (forall idx, In idx (seq 0 n) -> bind (sample_args idx args ax) fn = Ok (OArr (F idx))) as HE.
    { intros idx Hi. apply in_seq in Hi. destruct (HF idx ltac:(lia)) as (s & Hs & Hf & _). apply sample_at in Hs; [|assumption]. rewrite Hs. exact Hf. }
    induction (seq 0 n) as [|i r IH]; [reflexivity|]. cbn [mapM map]. rewrite HE by now left. rewrite IH by (intros; apply HE; now right). reflexivity. }
  exists (map F (seq 0 n)). split; [|split; [now rewrite map_length, seq_length|]].
  - cbn [bind]. unfold collect. destruct n as [|n]; [lia|]. cbn [seq map]. change (OArr (F 0%nat) :: map (fun i => OArr (F i)) (seq 1 n)) with (map (fun i => OArr (F i)) (seq 0 (S n))).
    assert (mapM as_arr (map (fun i => OArr (F i)) (seq 0 (S n))) = Ok (map F (seq 0 (S n)))) as -> by (generalize (seq 0 (S n)) as r; induction r as [|i r IH]; [reflexivity|]; cbn [map mapM as_arr]; now rewrite IH).
    cbn [bind]. rewrite (stack_rows_ok _ k); [reflexivity|discriminate|]. apply Forall_forall. intros v Hv. apply in_map_iff in Hv. destruct Hv as (i & <- & Hi). apply in_seq in Hi. destruct (HF i ltac:(lia)) as (s & _ & _ & E). exact E.
  - intros i Hi. rewrite nth_error_map. rewrite (nth_error_nth' _ 0%nat) by now rewrite seq_length. rewrite seq_nth by assumption. reflexivity.
Qed.
Print Assumptions C37_lmap.

(** functions with several outputs: a tuple of arrays, each with one row per sample *)
Theorem C37_lmap_tuple : forall A P (fn : list (sarg A P) -> result out) ax (args : list (arg A P)) n l0 pre post (F : nat -> nat -> list R) m k,
  List.length ax = List.length args -> args = pre ++ Arr l0 :: post -> Forall (fun a => a = ANone) pre -> List.length l0 = n -> (0 < n)%nat ->
  (forall i, (i < n)%nat -> exists s, at_sample i args ax s /\ fn s = Ok (OTup (map (F i) (seq 0 m))) /\ forall j, (j < m)%nat -> List.length (F i j) = k j) ->
  exists arrs, lmap fn (AxList ax) args = Ok (MTup arrs) /\ List.length arrs = m /\
    forall j, (j < m)%nat -> exists rows, nth_error arrs j = Some rows /\ List.length rows = n /\ forall i, (i < n)%nat -> nth_error rows i = Some (F i j).
Proof.
  intros A P fn ax args n l0 pre post F m k L Ea Hpre L0 Hn HF. unfold lmap, full_axes. rewrite L, Nat.eqb_refl. cbn [bind].
  assert (batch_size args = Ok n) as ->.
  { unfold batch_size. rewrite Ea. clear -Hpre L0. induction pre as [|a pre IH]; [simpl; now rewrite L0|]. inversion Hpre; subst. simpl. now apply IH. }
  cbn [bind]. assert (mapM (fun idx => bind (sample_args idx args ax) fn) (seq 0 n) = Ok (map (fun i => OTup (map (F i) (seq 0 m))) (seq 0 n))) as ->.
  { assert (forall idx, In idx (seq 0 n) -> bind (sample_args idx args ax) fn = Ok (OTup (map (F idx) (seq 0 m)))) as HE.
    { intros idx Hi. apply in_seq in Hi. destruct (HF idx ltac:(lia)) as (s & Hs & Hf & _). apply sample_at in Hs; [|assumption]. rewrite Hs. exact Hf. }
    induction (seq 0 n) as [|i r IH]; [reflexivity|]. cbn [mapM map]. rewrite HE by now left. rewrite IH by (intros; apply HE; now right). reflexivity. }
  exists (map (fun j => map (fun i => F i j) (seq 0 n)) (seq 0 m)). split; [|split; [now rewrite map_length, seq_length|]].
  - cbn [bind]. unfold collect. destruct n as [|n]; [lia|]. cbn [seq map]. change (OTup (map (F 0%nat) (seq 0 m)) :: map (fun i => OTup (map (F i) (seq 0 m))) (seq 1 n)) with (map (fun i => OTup (map (F i) (seq 0 m))) (seq 0 (S n))).
    rewrite map_length, seq_length.
    assert (mapM (fun j => bind (mapM (pick j) (map (fun i => OTup (map (F i) (seq 0 m))) (seq 0 (S n)))) stack_rows) (seq 0 m) = Ok (map (fun j => map (fun i => F i j) (seq 0 (S n))) (seq 0 m))) as ->; [|reflexivity].
    assert (forall j, In j (seq 0 m) -> bind (mapM (pick j) (map (fun i => OTup (map (F i) (seq 0 m))) (seq 0 (S n)))) stack_rows = Ok (map (fun i => F i j) (seq 0 (S n)))) as HJ.
    { intros j Hj. apply in_seq in Hj. assert (mapM (pick j) (map (fun i => OTup (map (F i) (seq 0 m))) (seq 0 (S n))) = Ok (map (fun i => F i j) (seq 0 (S n)))) as ->.
      { generalize (seq 0 (S n)) as r. induction r as [|i r IH]; [reflexivity|]. cbn [map mapM pick]. rewrite nth_error_map, (nth_error_nth' _ 0%nat) by (rewrite seq_length; lia). rewrite seq_nth by lia. cbn [option_map Nat.add]. now rewrite IH. }
      cbn [bind]. apply (stack_rows_ok _ (k j)); [discriminate|]. apply Forall_forall. intros v Hv. apply in_map_iff in Hv. destruct Hv as (i & <- & Hi). apply in_seq in Hi. destruct (HF i ltac:(lia)) as (s & _ & _ & E). apply E. lia. }
    revert HJ. generalize (map (fun i => OTup (map (F i) (seq 0 m))) (seq 0 (S n))) as ll. intros ll HJ. clear -HJ. induction (seq 0 m) as [|j r IH]; [reflexivity|]. cbn [mapM]. rewrite HJ by now left. rewrite IH by (intros; apply HJ; now right). reflexivity.
  - intros j Hj. eexists. split; [rewrite nth_error_map, (nth_error_nth' _ 0%nat) by (rewrite seq_length; lia); rewrite seq_nth by lia; reflexivity|]. split; [now rewrite map_length, seq_length|].
    intros i Hi. rewrite nth_error_map, (nth_error_nth' _ 0%nat) by (rewrite seq_length; lia). rewrite seq_nth by lia. reflexivity.
Qed.
Print Assumptions C37_lmap_tuple.
(** a wrong number of axes is rejected *)
Theorem C37_axes_checked : forall A P (fn : list (sarg A P) -> result out) ax (args : list (arg A P)), List.length ax <> List.length args -> lmap fn (AxList ax) args = Raise AssertionError.
Proof. intros A P fn ax args H. unfold lmap, full_axes. apply Nat.eqb_neq in H. now rewrite H. Qed.
Print Assumptions C37_axes_checked.

(** *** cmap *)
(** the row of argument [a] that sample [i] gets *)
Definition c_row (i : nat) (a : carg) (mapped : bool) : list R :=
  if mapped then match a with CMat r => nth i r [] | CVec v => [nth i v 0] end else match a with CVec v => v | CMat r => nth i (concat (repeat r (S i))) [] end.
Section CMap.
Variable fn : list (list R) -> out.
Lemma cache_inv : forall sparse ax h, match cs_batch (cmap_run fn sparse ax h) with Some (S b) => cs_raw (cmap_run fn sparse ax h) = Some (S b) | _ => True end.
Proof using.
  intros sparse ax h. unfold cmap_run. assert (match cs_batch cst0 with Some (S b) => cs_raw cst0 = Some (S b) | _ => True end) as H0 by exact I. revert H0. generalize cst0 as s. induction h as [|args h IH]; intros s Hs; [exact Hs|].
  cbn [fold_left]. apply IH. unfold cmap. destruct (c_axes ax args) as [fax|e]; [|exact Hs]. destruct args as [|a0 args]; [exact Hs|].
  assert (match cs_batch (fst (c_refresh s (c_shape0 a0))) with Some (S b) => cs_raw (fst (c_refresh s (c_shape0 a0))) = Some (S b) | _ => True end) as K.
  { unfold c_refresh, casadi_map. destruct (cs_batch s) as [b|] eqn:Eb.
    - destruct (Nat.eqb_spec (c_shape0 a0) b); cbn [negb fst]; [rewrite Eb; exact Hs|]. destruct (c_shape0 a0); reflexivity || exact I.
    - destruct (c_shape0 a0); reflexivity || exact I. }
  destruct (c_refresh s (c_shape0 a0)) as [s' [u|e]]; [|exact K]. destruct (cs_raw s') eqn:Er; [|cbn [fst] in *; rewrite Er in *; exact K]. cbn [fst] in *. rewrite Er in *. exact K.
Qed.
Lemma cmap_after : forall sparse ax h a0 args, (0 < c_shape0 a0)%nat -> snd (cmap fn sparse ax (cmap_run fn sparse ax h) (a0 :: args)) =
  bind (c_axes ax (a0 :: args)) (fun fax => bind (call_raw fn (c_shape0 a0) (map (fun am => c_prepare (c_shape0 a0) (fst am) (snd am)) (combine (a0 :: args) fax))) (c_collect sparse (c_shape0 a0))).
Proof using.
  intros sparse ax h a0 args Hn. pose proof (cache_inv sparse ax h) as K. unfold cmap. destruct (c_axes ax (a0 :: args)) as [fax|e]; [|reflexivity]. cbn [bind].
  assert (exists s', c_refresh (cmap_run fn sparse ax h) (c_shape0 a0) = (s', Ok tt) /\ cs_raw s' = Some (c_shape0 a0)) as (s' & -> & ->); [|reflexivity].
  unfold c_refresh, casadi_map. destruct (cs_batch (cmap_run fn sparse ax h)) as [b|] eqn:Eb.
  - destruct (Nat.eqb_spec (c_shape0 a0) b) as [E|E]; cbn [negb].
    + eexists. split; [reflexivity|]. subst b. destruct (c_shape0 a0); [lia|assumption].
    + destruct (c_shape0 a0) eqn:En; [lia|]. cbn [Nat.eqb]. eexists. split; [reflexivity|]. reflexivity.
  - destruct (c_shape0 a0) eqn:En; [lia|]. cbn [Nat.eqb]. eexists. split; [reflexivity|]. reflexivity.
Qed.
End CMap.
(** the result of a call does not depend on the calls made before (with other batch sizes, or failing) *)
Theorem C37_cmap_history : forall fn sparse ax h a0 (args : list carg), (0 < c_shape0 a0)%nat ->
  snd (cmap fn sparse ax (cmap_run fn sparse ax h) (a0 :: args)) = snd (cmap fn sparse ax cst0 (a0 :: args)).
Proof. intros fn sparse ax h a0 args H. rewrite (cmap_after fn sparse ax h) by assumption. symmetry. apply (cmap_after fn sparse ax []). assumption. Qed.
Print Assumptions C37_cmap_history.
(** and it is, for every sample, what the function returns on that sample's arguments: mapped matrices and vectors indexed, unmapped vectors whole *)
Theorem C37_cmap : forall fn sparse (ax : list bool) h (args : list carg) n a0 (F : nat -> list R) k, List.length ax = List.length args -> hd_error args = Some a0 -> c_shape0 a0 = n -> (0 < n)%nat ->
  (forall (a : carg) (b : bool), In (a, b) (combine args ax) -> if (b : bool) then c_shape0 a = n else exists v, a = CVec v) ->
  (forall i, (i < n)%nat -> fn (map (fun am => c_row i (fst am) (snd am)) (combine args ax)) = OArr (F i) /\ List.length (F i) = k) ->
  exists rows, snd (cmap fn sparse (AxList ax) (cmap_run fn sparse (AxList ax) h) args) = Ok (MArr rows) /\ List.length rows = n /\ forall i, (i < n)%nat -> nth_error rows i = Some (F i).
Proof.
  intros fn sparse ax h args n a0 F k L Hd Hs Hn Hargs HF. destruct args as [|a args]; [discriminate|]. cbn in Hd. injection Hd as ->. rewrite cmap_after by lia. unfold c_axes. rewrite L, Nat.eqb_refl. cbn [bind]. rewrite Hs.
  exists (map F (seq 0 n)). split; [|split; [now rewrite map_length, seq_length|intros i Hi; rewrite nth_error_map, (nth_error_nth' _ 0%nat) by (rewrite seq_length; lia); rewrite seq_nth by lia; reflexivity]].
  unfold call_raw. assert (forallb (fun a1 => Nat.eqb (List.length a1) n) (map (fun am => c_prepare n (fst am) (snd am)) (combine (a0 :: args) ax)) = true) as ->.
  { apply forallb_forall. intros p Hp. apply in_map_iff in Hp. destruct Hp as ([a b] & <- & Hin). specialize (Hargs a b Hin). apply Nat.eqb_eq. cbn [fst snd]. destruct b.
    - destruct a; cbn in *; [assumption|now rewrite map_length].
    - destruct Hargs as [v ->]. cbn. apply repeat_length. }
  cbn [bind]. assert (map (fun i => fn (map (fun a1 => nth i a1 []) (map (fun am => c_prepare n (fst am) (snd am)) (combine (a0 :: args) ax)))) (seq 0 n) = map (fun i => OArr (F i)) (seq 0 n)) as ->.
  { apply map_ext_in. intros i Hi. apply in_seq in Hi. rewrite <- (proj1 (HF i ltac:(lia))). f_equal. rewrite map_map. apply map_ext_in. intros [a b] Hin. specialize (Hargs a b Hin). cbn [fst snd]. unfold c_row, c_prepare. destruct b.
    - destruct a as [r|v]; [reflexivity|]. cbn in Hargs. rewrite nth_indep with (d' := [0]) by (rewrite map_length; lia). now rewrite (map_nth (fun x => [x])).
    - destruct Hargs as [v ->]. rewrite nth_indep with (d' := v) by (rewrite repeat_length; lia). apply nth_repeat. }
  assert (forall i, In i (seq 0 n) -> List.length (F i) = k) as HK by (intros i Hi; apply in_seq in Hi; apply HF; lia).
  assert (mapM as_arr (map (fun i => OArr (F i)) (seq 0 n)) = Ok (map F (seq 0 n))) as EA by (generalize (seq 0 n) as r; induction r as [|i r IH]; [reflexivity|]; cbn [map mapM as_arr]; now rewrite IH).
  assert (Forall (fun v => List.length v = k) (map F (seq 0 n))) as FK by (apply Forall_forall; intros v Hv; apply in_map_iff in Hv; destruct Hv as (i & <- & Hi); auto).
  unfold c_collect. destruct sparse.
  - rewrite EA. cbn [bind]. f_equal. f_equal. rewrite (length_concat_const _ k) by assumption. rewrite map_length, seq_length. rewrite Nat.mul_comm, Nat.div_mul by lia. pose proof (concat_chunks _ k (map F (seq 0 n)) FK) as CC. rewrite map_length, seq_length in CC. exact CC.
  - unfold collect. destruct n as [|n]; [lia|]. cbn [seq map]. cbn [seq map] in EA. rewrite EA. cbn [bind]. rewrite (stack_rows_ok _ k); [reflexivity|discriminate|exact FK].
Qed.
Print Assumptions C37_cmap.

Example C37_nonvacuous : lmap (A := R) (P := R) (fun s => match s with [Elem a; Whole (Tree p); Elem b] => Ok (OArr [a + p; b]) | _ => Raise TypeError end) (AxList [true; false; true]) [Arr [1; 2]; Tree 10; Arr [3; 4; 5]]
    = Ok (MArr [[1 + 10; 3]; [2 + 10; 4]]) /\
  snd (cmap (fun a => OArr (concat a)) true (AxList [true; false]) (cmap_run (fun a => OArr (concat a)) true (AxList [true; false]) [[CVec [1; 2; 3]; CVec [7]]; [CVec [1; 2; 3]]]) [CVec [4; 5]; CVec [6; 7]])
    = Ok (MArr [[4; 6; 7]; [5; 6; 7]]).
Proof. split; reflexivity. Qed.
(** *** What fails: the batch size is read off the first argument even if that one is not mapped (here one of three samples is lost),
    and a mapped argument that is longer than the first one is silently cut *)
Theorem C37_unmapped_first_refuted : lmap (A := R) (P := R) (fun s => match s with [Whole (Arr p); Elem a] => Ok (OArr (a :: p)) | _ => Raise TypeError end) (AxList [false; true]) [Arr [10; 20]; Arr [1; 2; 3]]
    = Ok (MArr [[1; 10; 20]; [2; 10; 20]]) /\
  lmap (A := R) (P := R) (fun s => match s with [Whole (Arr p); Elem a] => Ok (OArr (a :: p)) | _ => Raise TypeError end) (AxList [false; true]) [Arr [10; 20; 30; 40]; Arr [1; 2; 3]] = Raise IndexError /\
  lmap (A := R) (P := R) (fun s => match s with [Whole (Tree p); Elem a] => Ok (OArr [a; p]) | _ => Raise TypeError end) (AxList [false; true]) [Tree 10; Arr [1; 2; 3]] = Raise AttributeError.
Proof. split; [|split]; reflexivity. Qed.
(** Empty batches: lmap raises IndexError; cmap raises on every call with an empty first argument, whatever was called before. *)
Theorem C37_empty_batch : (forall A P (fn : list (sarg A P) -> result out) ax (args : list (arg A P)), List.length ax = S (List.length args) -> lmap fn (AxList ax) (Arr [] :: args) = Raise IndexError) /\
  (forall fn sparse ax h a0 (args : list carg), c_shape0 a0 = 0%nat -> List.length ax = S (List.length args) -> exists e, snd (cmap fn sparse (AxList ax) (cmap_run fn sparse (AxList ax) h) (a0 :: args)) = Raise e /\ (e = RuntimeError \/ e = TypeError)).
Proof.
  split.
  - intros A P fn ax args L. unfold lmap, full_axes. cbn [List.length]. rewrite L, Nat.eqb_refl. reflexivity.
  - intros fn sparse ax h a0 args H0 L. assert (cs_raw (cmap_run fn sparse (AxList ax) h) <> Some 0%nat) as K.
    { unfold cmap_run. assert (cs_raw cst0 <> Some 0%nat) as K0 by discriminate. revert K0. generalize cst0 as s. induction h as [|a h IH]; intros s Hs; [exact Hs|]. cbn [fold_left]. apply IH. unfold cmap. destruct (c_axes (AxList ax) a); [|exact Hs]. destruct a as [|b a]; [exact Hs|].
      assert (cs_raw (fst (c_refresh s (c_shape0 b))) <> Some 0%nat) as G.
      { unfold c_refresh, casadi_map. destruct (match cs_batch s with Some _ => _ | None => true end); [|exact Hs]. destruct (c_shape0 b); cbn; [exact Hs|discriminate]. }
      destruct (c_refresh s (c_shape0 b)) as [s' [u|e]]; cbn [fst] in G; [|exact G]. destruct (cs_raw s') eqn:Er; cbn [fst]; rewrite Er; exact G. }
    unfold cmap, c_axes. cbn [List.length]. rewrite L, Nat.eqb_refl. unfold c_refresh, casadi_map. rewrite H0. cbn [Nat.eqb]. destruct (match cs_batch (cmap_run fn sparse (AxList ax) h) with Some _ => _ | None => true end).
    + eexists. split; [reflexivity|now left].
    + destruct (cs_raw (cmap_run fn sparse (AxList ax) h)) as [n|]; [|eexists; split; [reflexivity|now right]]. destruct n as [|n]; [congruence|]. destruct ax as [|b ax]; [discriminate|]. cbn [snd combine map fst]. unfold call_raw. cbn [forallb].
      assert (List.length (c_prepare 0 a0 b) = 0%nat) as -> by (destruct a0 as [r|v], b; cbn in *; try rewrite map_length; assumption || reflexivity). cbn [Nat.eqb andb bind]. eexists. split; [reflexivity|now left].
Qed.
Print Assumptions C37_empty_batch.
(** Finding: after a failed call with an empty batch the next one fails differently (the batch size is remembered before the function is mapped). *)
Theorem C37_empty_twice_refuted : snd (cmap (fun _ => OArr []) false (AxList [true]) cst0 [CMat []]) = Raise RuntimeError /\ snd (cmap (fun _ => OArr []) false (AxList [true]) (cmap_run (fun _ => OArr []) false (AxList [true]) [[CMat []]]) [CMat []]) = Raise TypeError.
Proof. split; reflexivity. Qed.
Print Assumptions C37_empty_twice_refuted.
