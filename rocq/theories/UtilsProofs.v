From Verif Require Import Base TreeModel TreeProofs TreeProofs2 UtilsModel.
From Coq Require Import ZifyBool ZifyNat.
Ltac Zify.zify_post_hook ::= Z.div_mod_to_equations.

(** ** chunks *)
Lemma nth_error_ext : forall A (l1 l2 : list A), (forall i, nth_error l1 i = nth_error l2 i) -> l1 = l2.
Proof.
  intros A l1; induction l1 as [|a r IH]; intros [|b r2] H.
  - reflexivity.
  - specialize (H 0); discriminate.
  - specialize (H 0); discriminate.
  - f_equal; [specialize (H 0); simpl in H; congruence|]. apply IH. intro i. exact (H (S i)).
Qed.

Lemma skipn_skipn' : forall A a b (l : list A), skipn a (skipn b l) = skipn (b + a) l.
Proof.
  intros A a b; revert a; induction b as [|b IH]; intros a l; simpl; [reflexivity|].
  destruct l; [now rewrite skipn_nil|]. apply IH.
Qed.

Lemma chunks_seq : forall A n k (l : list A),
  chunks n k l = map (fun i => firstn k (skipn (i * k) l)) (seq 0 n).
Proof.
  intros A n; induction n as [|n IH]; intros k l; [reflexivity|].
  cbn [chunks seq map]. rewrite IH. f_equal. rewrite <- seq_shift, map_map. apply map_ext.
  intro i. rewrite skipn_skipn'. reflexivity.
Qed.

Lemma chunks_length : forall A n k (l : list A), List.length (chunks n k l) = n.
Proof. intros. now rewrite chunks_seq, map_length, seq_length. Qed.

Lemma chunks_concat : forall A n k (l : list A), List.length l = n * k -> concat (chunks n k l) = l.
Proof.
  intros A n; induction n as [|n IH]; intros k l H; simpl.
  - destruct l; [reflexivity | discriminate].
  - rewrite IH; [apply firstn_skipn|]. rewrite skipn_length. simpl in H. lia.
Qed.

Lemma concat_chunks : forall A k (m : list (list A)), Forall (fun r => List.length r = k) m ->
  chunks (List.length m) k (concat m) = m.
Proof.
  intros A k m H; induction H as [|r m Hr _ IH]; simpl; [reflexivity|].
  rewrite firstn_app, skipn_app. subst k. rewrite firstn_all, Nat.sub_diag, skipn_all. simpl.
  now rewrite app_nil_r, IH.
Qed.

Lemma length_concat_const : forall A k (m : list (list A)), Forall (fun r => List.length r = k) m ->
  List.length (concat m) = List.length m * k.
Proof.
  intros A k m H; induction H as [|r m Hr _ IH]; simpl; [reflexivity|].
  now rewrite app_length, IH, Hr.
Qed.

(** ** C07 *)
Definition windows {A} (x : list A) (width stride batch : nat) : list (list A) :=
  map (fun b => firstn width (skipn (b * stride) x)) (seq 0 batch).

Lemma zip_app_map : forall A I (f g : I -> list A) l,
  zip_app (map f l) (map g l) = map (fun i => f i ++ g i) l.
Proof. intros A I f g l; induction l as [|i r IH]; simpl; [reflexivity|]. now rewrite IH. Qed.

Lemma firstn_plus : forall A a b (l : list A), firstn (a + b) l = firstn a l ++ firstn b (skipn a l).
Proof.
  intros A a; induction a as [|a IH]; intros b l; simpl; [reflexivity|].
  destruct l; simpl; [now rewrite firstn_nil|]. now rewrite IH.
Qed.

Lemma conv_ok : forall A (x : list A) width stride batch,
  0 < stride -> stride <= width <= 2 * stride -> List.length x = width + (batch * stride) ->
  batch_conv1d x width stride = Ok {| ncols := width; rows := windows x width stride (S batch) |}.
Proof.
  intros A x width stride batch Hs Hw Hl. unfold batch_conv1d.
  replace (Nat.eqb stride 0) with false by (symmetry; apply Nat.eqb_neq; lia).
  replace (Z.of_nat (List.length x) - Z.of_nat width)%Z with (Z.of_nat batch * Z.of_nat stride)%Z by lia.
  rewrite Z_mod_mult. cbn [Z.eqb negb]. rewrite Z_div_mult by lia.
  assert (py_bound (List.length x) (Z.of_nat (List.length x) - (Z.of_nat width - Z.of_nat stride))
          = S batch * stride) as E.
  { unfold py_bound. destruct (Z.ltb_spec (Z.of_nat (List.length x) - (Z.of_nat width - Z.of_nat stride)) 0); nia. }
  rewrite E. clear E. unfold reshape2.
  replace (Z.eqb (Z.of_nat batch + 1) (-1)) with false by lia.
  replace (Z.ltb (Z.of_nat batch + 1) 0) with false by lia.
  replace (Z.to_nat (Z.of_nat batch + 1)) with (S batch) by lia.
  assert (List.length (firstn (S batch * stride) x) = S batch * stride) as El.
  { apply firstn_length_le. nia. }
  rewrite El, Nat.eqb_refl. cbn [bind rows ncols].
  assert (py_bound stride (Z.of_nat width - Z.of_nat stride) = width - stride) as E.
  { unfold py_bound. destruct (Z.ltb_spec (Z.of_nat width - Z.of_nat stride) 0); lia. }
  rewrite E. clear E. unfold vstack. cbn [rows ncols].
  assert (List.length (skipn (S batch * stride) x) = width - stride) as Eb.
  { rewrite skipn_length. nia. }
  rewrite Eb, Nat.eqb_refl. cbn [bind]. unfold hstack. cbn [rows ncols].
  rewrite app_length, map_length.
  assert (List.length (tl (chunks (S batch) stride (firstn (S batch * stride) x))) = batch) as Et.
  { cbn [chunks tl]. apply chunks_length. }
  rewrite Et, chunks_length.
  replace (Nat.eqb (S batch) (batch + List.length [skipn (S batch * stride) x])) with true
    by (symmetry; apply Nat.eqb_eq; simpl; lia).
  f_equal. replace (stride + (width - stride)) with width by lia. f_equal.
  assert (chunks (S batch) stride (firstn (S batch * stride) x) =
          map (fun i => firstn stride (skipn (i * stride) x)) (seq 0 (S batch))) as Ea.
  { rewrite chunks_seq. apply map_ext_in. intros i Hi. apply in_seq in Hi.
    rewrite skipn_firstn_comm, firstn_firstn. f_equal. nia. }
  rewrite Ea.
  assert (map (firstn (width - stride)) (tl (map (fun i => firstn stride (skipn (i * stride) x)) (seq 0 (S batch))))
          ++ [skipn (S batch * stride) x]
          = map (fun i => firstn (width - stride) (skipn (stride + i * stride) x)) (seq 0 (S batch))) as Eo.
  { change (tl (map (fun i => firstn stride (skipn (i * stride) x)) (seq 0 (S batch))))
      with (map (fun i => firstn stride (skipn (i * stride) x)) (seq 1 batch)).
    rewrite (seq_S batch 0). rewrite map_app. f_equal.
    - rewrite <- seq_shift, !map_map. apply map_ext. intro i. rewrite firstn_firstn.
      f_equal. lia.
    - cbn [map]. f_equal. replace (stride + (0 + batch) * stride) with (S batch * stride) by lia.
      rewrite firstn_all2; [reflexivity|]. lia. }
  rewrite Eo, zip_app_map. unfold windows. apply map_ext. intro i.
  replace width with (stride + (width - stride)) at 2 by lia. rewrite firstn_plus.
  do 2 f_equal. now rewrite skipn_skipn', Nat.add_comm.
Qed.

Lemma conv_bad_width : forall A (x : list A) width stride batch,
  0 < stride -> ~ (stride <= width <= 2 * stride) -> List.length x = width + (batch * stride) ->
  batch_conv1d x width stride = Raise ValueError.
Proof.
  intros A x width stride batch Hs Hw Hl. unfold batch_conv1d.
  replace (Nat.eqb stride 0) with false by (symmetry; apply Nat.eqb_neq; lia).
  replace (Z.of_nat (List.length x) - Z.of_nat width)%Z with (Z.of_nat batch * Z.of_nat stride)%Z by lia.
  rewrite Z_mod_mult. cbn [Z.eqb negb]. rewrite Z_div_mult by lia.
  unfold reshape2 at 1.
  replace (Z.eqb (Z.of_nat batch + 1) (-1)) with false by lia.
  replace (Z.ltb (Z.of_nat batch + 1) 0) with false by lia.
  replace (Z.to_nat (Z.of_nat batch + 1)) with (S batch) by lia.
  destruct (Nat.eqb_spec (S batch * stride) (List.length
    (firstn (py_bound (List.length x) (Z.of_nat (List.length x) - (Z.of_nat width - Z.of_nat stride))) x)))
    as [E|E]; [|reflexivity].
  cbn [bind rows ncols]. unfold vstack. cbn [rows ncols].
  rewrite firstn_length in E. unfold py_bound in E.
  destruct (Z.ltb_spec (Z.of_nat (List.length x) - (Z.of_nat width - Z.of_nat stride)) 0); [nia|].
  assert (stride <= width) as Hsw by nia. assert (2 * stride < width) as H2 by lia.
  assert (py_bound stride (Z.of_nat width - Z.of_nat stride) = stride) as Ec.
  { unfold py_bound. destruct (Z.ltb_spec (Z.of_nat width - Z.of_nat stride) 0); lia. }
  rewrite Ec.
  assert (List.length (skipn (py_bound (List.length x) (Z.of_nat (List.length x) - (Z.of_nat width - Z.of_nat stride))) x)
          = width - stride) as Eb.
  { rewrite skipn_length. unfold py_bound.
    destruct (Z.ltb_spec (Z.of_nat (List.length x) - (Z.of_nat width - Z.of_nat stride)) 0); nia. }
  rewrite Eb. destruct (Nat.eqb_spec stride (width - stride)); [lia | reflexivity].
Qed.

Lemma conv_indivisible : forall A (x : list A) width stride, 0 < stride ->
  ((Z.of_nat (List.length x) - Z.of_nat width) mod Z.of_nat stride <> 0)%Z ->
  batch_conv1d x width stride = Raise ValueError.
Proof.
  intros A x width stride Hs H. unfold batch_conv1d.
  replace (Nat.eqb stride 0) with false by (symmetry; apply Nat.eqb_neq; lia).
  destruct (Z.eqb_spec ((Z.of_nat (List.length x) - Z.of_nat width) mod Z.of_nat stride) 0); [contradiction|].
  reflexivity.
Qed.

(** ** index_of *)
Lemma index_of_lt : forall n l i, index_of n l = Some i -> i < List.length l /\ nth_error l i = Some n.
Proof.
  intros n l; induction l as [|x r IH]; intros i H; simpl in H; [discriminate|].
  destruct (String.eqb_spec n x) as [->|Hne].
  - inversion H; subst. simpl. split; [lia | reflexivity].
  - destruct (index_of n r) as [j|] eqn:E; [|discriminate]. inversion H; subst.
    destruct (IH j eq_refl). simpl. split; [lia | assumption].
Qed.

Lemma index_of_nth : forall l, NoDup l -> forall i n, nth_error l i = Some n -> index_of n l = Some i.
Proof.
  intros l Hnd; induction Hnd as [|x r Hx Hr IH]; intros i n H; [destruct i; discriminate|].
  destruct i as [|i]; simpl in *.
  - inversion H; subst. now rewrite String.eqb_refl.
  - destruct (String.eqb_spec n x) as [->|Hne].
    + exfalso. apply Hx. eapply nth_error_In; eauto.
    + now rewrite (IH i n H).
Qed.

Lemma index_of_in : forall n l, In n l -> exists i, index_of n l = Some i.
Proof.
  intros n l; induction l as [|x r IH]; simpl; [tauto|]. intros [->|H].
  - rewrite String.eqb_refl. eauto.
  - destruct (String.eqb n x); [eauto|]. destruct (IH H) as [i ->]. simpl. eauto.
Qed.

Lemma index_of_none : forall n l, index_of n l = None <-> ~ In n l.
Proof.
  intros n l. destruct (index_of n l) as [i|] eqn:E.
  - split; [discriminate|]. intro H. exfalso. apply H. apply index_of_lt in E.
    destruct E as [_ E]. eapply nth_error_In; eauto.
  - split; [|reflexivity]. intros _ H. apply index_of_in in H. destruct H; congruence.
Qed.

(** ** Layout facts of a constructed operator *)
Record dvo_ok (op : dvo) : Prop := {
  ok_names : NoDup (stage_var_names op);
  ok_globals : NoDup (gnames op);
  ok_groups : forall g, In g (sgroups op) -> exists l, dget g (mvn op) = Some l;
}.

Lemma mapM_all_ok : forall X Y (f : X -> result Y) l ys, mapM f l = Ok ys ->
  forall x, In x l -> exists y, f x = Ok y.
Proof.
  intros X Y f l; induction l as [|a r IH]; intros ys H x Hx; simpl in *; [tauto|].
  destruct (f a) as [b|] eqn:E; [|discriminate]. destruct (mapM f r) as [bs|] eqn:Er; [|discriminate].
  destruct Hx as [->|Hx]; eauto.
Qed.

Lemma make_dvo_ok : forall m ni ns sg gn op, make_dvo m ni ns sg gn = Ok op ->
  dvo_ok op /\ mvn op = m /\ sgroups op = sg /\ gnames op = gn /\ nintervals op = ni /\ nspi op = ns.
Proof.
  intros m ni ns sg gn op H. unfold make_dvo in H.
  set (op0 := {| mvn := m; sgroups := sg; gnames := gn; nintervals := ni; nspi := ns |}) in *.
  destruct (mapM (group_names op0) sg) as [ls|] eqn:E; [|discriminate].
  destruct (nodupb (stage_var_names op0)) eqn:E1; [|discriminate].
  destruct (nodupb gn) eqn:E2; [|discriminate]. simpl in H. inversion H; subst op.
  split; [|repeat split]. constructor.
  - now apply nodupb_spec.
  - now apply nodupb_spec.
  - intros g Hg. destruct (mapM_all_ok _ _ _ _ _ E g Hg) as [l Hl]. unfold group_names in Hl.
    simpl in *. destruct (dget g m); [eauto | discriminate].
Qed.

Lemma make_dvo_complete : forall m ni ns sg gn,
  let op := {| mvn := m; sgroups := sg; gnames := gn; nintervals := ni; nspi := ns |} in
  dvo_ok op -> make_dvo m ni ns sg gn = Ok op.
Proof.
  intros m ni ns sg gn op [H1 H2 H3]. unfold make_dvo. fold op.
  assert (exists ls, mapM (group_names op) sg = Ok ls) as [ls E].
  { change sg with (sgroups op). induction (sgroups op) as [|g r IH]; simpl; [eauto|].
    unfold group_names at 1. destruct (H3 g) as [l ->]; [simpl; auto|].
    destruct IH as [ls Hls]; [intros; apply H3; simpl; auto|]. rewrite Hls. eauto. }
  rewrite E. apply nodupb_spec in H1, H2. rewrite H1. change gn with (gnames op). rewrite H2. reflexivity.
Qed.

(** the flat list of (group, name) pairs *)
Definition var_list (op : dvo) : list (string * string) :=
  flat_map (fun g => map (fun n => (g, n)) (gnames_of op g)) (sgroups op).

Lemma stage_var_names_pairs : forall op, stage_var_names op = map (fun gn => svname (fst gn) (snd gn)) (var_list op).
Proof.
  intro op. unfold stage_var_names, var_list. induction (sgroups op) as [|g r IH]; simpl; [reflexivity|].
  rewrite map_app, map_map. simpl. now rewrite IH.
Qed.

Lemma stage_var_names_length : forall op, List.length (stage_var_names op) = num_var_stage op.
Proof.
  intro op. unfold stage_var_names, num_var_stage, group_sizes. induction (sgroups op) as [|g r IH]; simpl; [reflexivity|].
  rewrite app_length, map_length, IH. reflexivity.
Qed.

Definition is_var (op : dvo) (g n : string) : Prop := In g (sgroups op) /\ In n (gnames_of op g).

Lemma is_var_list : forall op g n, is_var op g n <-> In (g, n) (var_list op).
Proof.
  intros. unfold is_var, var_list. rewrite in_flat_map. split.
  - intros [H1 H2]. exists g. split; [assumption|]. apply in_map_iff. eauto.
  - intros (g' & H1 & H2). apply in_map_iff in H2. destruct H2 as (n' & E & H2). inversion E; subst. auto.
Qed.

Lemma NoDup_map_elim : forall A B (f : A -> B) l x y, NoDup (map f l) -> In x l -> In y l -> f x = f y -> x = y.
Proof.
  intros A B f l; induction l as [|a r IH]; simpl; intros x y Hn Hx Hy E; [tauto|].
  inversion Hn as [|? ? Ha Hr]; subst. destruct Hx as [->|Hx], Hy as [->|Hy]; auto.
  - exfalso. apply Ha. rewrite E. now apply in_map.
  - exfalso. apply Ha. rewrite <- E. now apply in_map.
Qed.

Lemma norm_stage_nat : forall op s, s < num_stages op -> norm_stage op (Z.of_nat s) = Ok s.
Proof.
  intros op s H. unfold norm_stage.
  destruct (Z.ltb_spec (Z.of_nat (num_stages op) - 1) (Z.of_nat s)); [lia|].
  destruct (Z.ltb_spec (Z.of_nat s) (- Z.of_nat (num_stages op))); [lia|]. simpl.
  f_equal. rewrite Z.mod_small by lia. lia.
Qed.

Lemma norm_stage_neg : forall op s, (- Z.of_nat (num_stages op) <= s < 0)%Z ->
  norm_stage op s = norm_stage op (s + Z.of_nat (num_stages op)).
Proof.
  intros op s H. unfold norm_stage.
  assert ((Z.ltb (Z.of_nat (num_stages op) - 1) s || Z.ltb s (- Z.of_nat (num_stages op)))%bool = false) as -> by lia.
  assert ((Z.ltb (Z.of_nat (num_stages op) - 1) (s + Z.of_nat (num_stages op)) ||
           Z.ltb (s + Z.of_nat (num_stages op)) (- Z.of_nat (num_stages op)))%bool = false) as -> by lia.
  do 2 f_equal. replace (s + Z.of_nat (num_stages op))%Z with (s + 1 * Z.of_nat (num_stages op))%Z by lia.
  now rewrite Z_mod_plus_full.
Qed.

Lemma norm_stage_err : forall op s, (s < - Z.of_nat (num_stages op) \/ Z.of_nat (num_stages op) <= s)%Z ->
  norm_stage op s = Raise ValueError.
Proof.
  intros op s H. unfold norm_stage.
  assert ((Z.ltb (Z.of_nat (num_stages op) - 1) s || Z.ltb s (- Z.of_nat (num_stages op)))%bool = true) as -> by lia.
  reflexivity.
Qed.

Lemma num_stages_pos : forall op, 0 < num_stages op.
Proof. intro. unfold num_stages. rewrite Nat.add_1_r. apply Nat.lt_0_succ. Qed.

Lemma mixed_radix : forall n j j' s s', j < n -> j' < n -> j + s * n = j' + s' * n -> j = j' /\ s = s'.
Proof.
  intros n j j' s s' H1 H2 H. destruct (lt_eq_lt_dec s s') as [[Hlt|Heq]|Hlt].
  - exfalso. assert (s' * n >= (s + 1) * n) by (apply Nat.mul_le_mono_r; lia). lia.
  - subst. lia.
  - exfalso. assert (s * n >= (s' + 1) * n) by (apply Nat.mul_le_mono_r; lia). lia.
Qed.

(** forward: every variable has an index in range *)
Lemma index_at_var : forall op g n s, g <> "global" -> is_var op g n -> s < num_stages op ->
  exists i, index_of (svname g n) (stage_var_names op) = Some i /\ i < num_var_stage op /\
    index_at op g n (Z.of_nat s) = Ok (i + s * num_var_stage op).
Proof.
  intros op g n s Hg Hv Hs. unfold index_at. destruct (String.eqb_spec g "global"); [contradiction|].
  rewrite norm_stage_nat by assumption. cbn [bind].
  destruct (index_of_in (svname g n) (stage_var_names op)) as [i Hi].
  { rewrite stage_var_names_pairs. apply is_var_list in Hv.
    apply (in_map (fun gn => svname (fst gn) (snd gn))) in Hv. exact Hv. }
  exists i. split; [assumption|]. unfold enum_get. rewrite Hi.
  apply index_of_lt in Hi. rewrite stage_var_names_length in Hi. split; [tauto | reflexivity].
Qed.

Lemma index_in_range : forall op g n s i, g <> "global" -> is_var op g n -> s < num_stages op ->
  index_at op g n (Z.of_nat s) = Ok i -> i < num_all_stage_var op.
Proof.
  intros op g n s i Hg Hv Hs H. destruct (index_at_var op g n s Hg Hv Hs) as (j & _ & Hj & E).
  rewrite E in H. inversion H; subst. unfold num_all_stage_var. nia.
Qed.

Lemma index_inj : forall op g n s g' n' s' i, dvo_ok op -> g <> "global" -> g' <> "global" ->
  is_var op g n -> is_var op g' n' -> s < num_stages op -> s' < num_stages op ->
  index_at op g n (Z.of_nat s) = Ok i -> index_at op g' n' (Z.of_nat s') = Ok i ->
  g = g' /\ n = n' /\ s = s'.
Proof.
  intros op g n s g' n' s' i Hok Hg Hg' Hv Hv' Hs Hs' H H'.
  destruct (index_at_var op g n s Hg Hv Hs) as (j & E1 & Hj & E).
  destruct (index_at_var op g' n' s' Hg' Hv' Hs') as (j' & E1' & Hj' & E').
  rewrite E in H. rewrite E' in H'. inversion H; inversion H'; subst.
  assert (s = s' /\ j = j') as [-> ->].
  { assert (j + s * num_var_stage op = j' + s' * num_var_stage op) by congruence.
    destruct (mixed_radix (num_var_stage op) j j' s s'); auto. }
  apply index_of_lt in E1, E1'. destruct E1 as [_ E1], E1' as [_ E1'].
  assert (svname g n = svname g' n') as Esv by congruence.
  assert ((g, n) = (g', n')) as Ep.
  { apply NoDup_map_elim with (f := fun gn => svname (fst gn) (snd gn)) (l := var_list op).
    - rewrite <- stage_var_names_pairs. apply Hok.
    - now apply is_var_list.
    - now apply is_var_list.
    - exact Esv. }
  inversion Ep. auto.
Qed.

Lemma index_surj_stage : forall op i, dvo_ok op -> ~ In "global" (sgroups op) -> i < num_all_stage_var op ->
  exists g n s, is_var op g n /\ s < num_stages op /\ index_at op g n (Z.of_nat s) = Ok i.
Proof.
  intros op i Hok Hng Hi. unfold num_all_stage_var in Hi.
  assert (0 < num_var_stage op) as Hnv by nia.
  set (s := i / num_var_stage op). set (j := i mod num_var_stage op).
  assert (j < num_var_stage op) as Hj by (apply Nat.mod_upper_bound; lia).
  assert (i = j + s * num_var_stage op) as Ei.
  { unfold s, j. rewrite (Nat.div_mod i (num_var_stage op)) at 1 by lia. lia. }
  assert (s < num_stages op) as Hs by nia.
  assert (exists gn, nth_error (var_list op) j = Some gn) as [[g n] Hn].
  { assert (j < List.length (var_list op)) as Hl.
    { rewrite <- stage_var_names_length, stage_var_names_pairs, map_length in Hj. exact Hj. }
    apply nth_error_Some in Hl. destruct (nth_error (var_list op) j); [eauto | contradiction]. }
  assert (is_var op g n) as Hv by (apply is_var_list; eapply nth_error_In; eauto).
  exists g, n, s. split; [assumption|]. split; [assumption|].
  assert (g <> "global") as Hg by (intros ->; apply Hng, Hv).
  destruct (index_at_var op g n s Hg Hv Hs) as (j' & E1 & _ & E). rewrite E, Ei. f_equal. f_equal.
  assert (index_of (svname g n) (stage_var_names op) = Some j) as E2; [|congruence].
  apply index_of_nth; [apply Hok|]. rewrite stage_var_names_pairs.
  rewrite nth_error_map, Hn. reflexivity.
Qed.

Lemma index_global : forall op n s, In n (gnames op) -> exists i,
  index_at op "global" n s = Ok (num_all_stage_var op + i) /\ nth_error (gnames op) i = Some n /\ i < num_global_var op.
Proof.
  intros op n s H. destruct (index_of_in n _ H) as [i Hi]. exists i. unfold index_at, enum_get. simpl.
  rewrite Hi. simpl. apply index_of_lt in Hi. unfold num_global_var. tauto.
Qed.

Lemma index_global_surj : forall op i s, dvo_ok op -> num_all_stage_var op <= i < num_dec op ->
  exists n, In n (gnames op) /\ index_at op "global" n s = Ok i.
Proof.
  intros op i s Hok [H1 H2]. unfold num_dec, num_global_var in H2.
  assert (i - num_all_stage_var op < List.length (gnames op)) as Hl by lia.
  apply nth_error_Some in Hl. destruct (nth_error (gnames op) (i - num_all_stage_var op)) as [n|] eqn:E; [|contradiction].
  exists n. split; [eapply nth_error_In; eauto|].
  unfold index_at, enum_get. simpl. rewrite (index_of_nth _ (ok_globals op Hok) _ _ E). simpl. f_equal. lia.
Qed.

Lemma index_at_stage_cong : forall op g n s s', g <> "global" -> norm_stage op s = norm_stage op s' ->
  index_at op g n s = index_at op g n s'.
Proof.
  intros op g n s s' Hg H. unfold index_at. destruct (String.eqb_spec g "global"); [contradiction|]. now rewrite H.
Qed.

(** ** C09: flatten / unflatten *)
Section Flat.
Context {A : Type}.

Lemma zip_app_length : forall (a b : list (list A)), List.length a = List.length b ->
  List.length (zip_app a b) = List.length a.
Proof. intros a; induction a as [|x r IH]; intros [|y s] H; simpl in *; try discriminate; auto. Qed.

Lemma zip_app_nth : forall (a b : list (list A)) i, List.length a = List.length b -> i < List.length a ->
  nth i (zip_app a b) [] = nth i a [] ++ nth i b [].
Proof.
  intros a; induction a as [|x r IH]; intros [|y s] i H Hi; simpl in *; try discriminate; try lia.
  destruct i; [reflexivity|]. apply IH; lia.
Qed.

Definition shaped (ns k : nat) (a : list (list A)) : Prop :=
  List.length a = ns /\ Forall (fun r => List.length r = k) a.

Lemma shaped_nth : forall ns k a i, shaped ns k a -> i < ns -> List.length (nth i a []) = k.
Proof.
  intros ns k a i [H1 H2] Hi. rewrite Forall_forall in H2. apply H2. apply nth_In. lia.
Qed.

(** row s of hconcat is the concatenation of the rows s *)
Lemma fold_zip_app : forall (arrs : list (list (list A))) acc ns, List.length acc = ns ->
  Forall (fun a => List.length a = ns) arrs ->
  List.length (fold_left zip_app arrs acc) = ns /\
  forall i, i < ns -> nth i (fold_left zip_app arrs acc) [] =
     nth i acc [] ++ concat (map (fun a => nth i a []) arrs).
Proof.
  intros arrs; induction arrs as [|a r IH]; intros acc ns Hl H; simpl.
  - split; [assumption|]. intros. now rewrite app_nil_r.
  - inversion H as [|? ? Ha Hr]; subst. 
    destruct (IH (zip_app acc a) (List.length acc)) as [H1 H2].
    { apply zip_app_length. auto. }
    { assumption. }
    split; [assumption|]. intros i Hi. rewrite H2 by assumption. rewrite zip_app_nth by auto.
    now rewrite <- app_assoc.
Qed.

Lemma hconcat_ok : forall (arrs : list (list (list A))) ns, arrs <> [] -> Forall (fun a => List.length a = ns) arrs ->
  exists m, hconcat arrs = Ok m /\ List.length m = ns /\
    forall i, i < ns -> nth i m [] = concat (map (fun a => nth i a []) arrs).
Proof.
  intros [|a r] ns Hne H; [congruence|]. inversion H as [|? ? Ha Hr]; subst. unfold hconcat.
  assert (forallb (fun b => Nat.eqb (List.length b) (List.length a)) r = true) as ->.
  { apply forallb_forall. intros b Hb. rewrite Forall_forall in Hr. apply Nat.eqb_eq. auto. }
  destruct (fold_zip_app r a (List.length a) eq_refl Hr) as [H1 H2].
  eexists; split; [reflexivity|]. split; [assumption|]. intros i Hi. rewrite H2 by assumption. reflexivity.
Qed.

Lemma list_eq_nth : forall X (d : X) (a b : list X), List.length a = List.length b ->
  (forall i, i < List.length a -> nth i a d = nth i b d) -> a = b.
Proof.
  intros X d a; induction a as [|x r IH]; intros [|y s] H Hn; simpl in *; try discriminate; [reflexivity|].
  f_equal; [exact (Hn 0 ltac:(lia))|]. apply IH; [lia|]. intros i Hi. exact (Hn (S i) ltac:(lia)).
Qed.

Lemma nsum_sum : forall l, nsum l = sum l.
Proof. intros l; induction l; simpl; auto. Qed.

Lemma split_sizes_length : forall sizes (l : list A), sizes <> [] -> List.length (split_sizes sizes l) = List.length sizes.
Proof.
  intros sizes; induction sizes as [|n r IH]; intros l H; [congruence|].
  destruct r as [|n2 r2]; [reflexivity|].
  change (split_sizes (n :: n2 :: r2) l) with (firstn n l :: split_sizes (n2 :: r2) (skipn n l)).
  cbn [List.length]. rewrite IH by discriminate. reflexivity.
Qed.

(** the group arrays of unflatten for a given 2d stage array *)
Lemma split_groups_of_concat : forall op (m : list (list A)) arrs, sgroups op <> [] ->
  List.length arrs = List.length (sgroups op) ->
  Forall2 (fun a g => shaped (List.length m) (group_size op g) a) arrs (sgroups op) ->
  (forall i, i < List.length m -> nth i m [] = concat (map (fun a => nth i a []) arrs)) ->
  split_groups op m = arrs.
Proof.
  intros op m arrs Hne Hl Hsh Hrow. unfold split_groups.
  replace (Nat.max 1 (List.length (sgroups op))) with (List.length (sgroups op))
    by (destruct (sgroups op); simpl; [congruence | lia]).
  apply list_eq_nth with (d := []); [now rewrite map_length, seq_length|].
  rewrite map_length, seq_length. intros k Hk.
  rewrite nth_indep with (d' := map (fun row => nth 0 (split_sizes (group_sizes op) row) []) m)
    by (now rewrite map_length, seq_length).
  rewrite map_nth with (f := fun k => map (fun row => nth k (split_sizes (group_sizes op) row) []) m) (d := 0).
  rewrite seq_nth by assumption. simpl.
  assert (shaped (List.length m) (group_size op (nth k (sgroups op) "")) (nth k arrs [])) as Hs.
  { clear -Hsh Hk. revert k Hk. induction Hsh as [|a g r s H _ IH]; intros k Hk; simpl in *; [lia|].
    destruct k; [assumption|]. apply IH. lia. }
  apply list_eq_nth with (d := []); [rewrite map_length; symmetry; apply Hs|].
  rewrite map_length. intros i Hi.
  rewrite nth_indep with (d' := nth k (split_sizes (group_sizes op) []) []) by (now rewrite map_length).
  rewrite map_nth with (f := fun row => nth k (split_sizes (group_sizes op) row) []).
  rewrite Hrow by assumption.
  assert (group_sizes op = map (@List.length A) (map (fun a => nth i a []) arrs)) as Eg.
  { unfold group_sizes. rewrite map_map. clear -Hsh Hi. revert Hsh.
    generalize (sgroups op). intros gs Hsh. induction Hsh as [|a g r s H _ IH]; simpl; [reflexivity|].
    f_equal; [symmetry; eapply shaped_nth; eauto | assumption]. }
  rewrite Eg, split_sizes_concat.
  - rewrite nth_indep with (d' := nth i [] []) by (rewrite map_length; lia).
    now rewrite map_nth with (f := fun a => nth i a []) (d := []).
  - destruct arrs; [|discriminate]. destruct (sgroups op); [congruence | discriminate].
Qed.

Lemma split_groups_spec : forall op (m : list (list A)), sgroups op <> [] ->
  Forall (fun r => List.length r = num_var_stage op) m ->
  Forall2 (fun a g => shaped (List.length m) (group_size op g) a) (split_groups op m) (sgroups op) /\
  (forall i, i < List.length m -> concat (map (fun a => nth i a []) (split_groups op m)) = nth i m []).
Proof.
  intros op m Hne Hm. unfold split_groups.
  replace (Nat.max 1 (List.length (sgroups op))) with (List.length (sgroups op))
    by (destruct (sgroups op); simpl; [congruence | lia]).
  assert (group_sizes op <> []) as Hgs by (unfold group_sizes; destruct (sgroups op); [congruence | discriminate]).
  split.
  - assert (forall k g, nth_error (sgroups op) k = Some g ->
       shaped (List.length m) (group_size op g) (map (fun row => nth k (split_sizes (group_sizes op) row) []) m)) as H.
    { intros k g Hk. split; [now rewrite map_length|]. apply Forall_forall. intros r Hr.
      apply in_map_iff in Hr. destruct Hr as (row & <- & Hrow). rewrite Forall_forall in Hm.
      specialize (Hm _ Hrow). unfold num_var_stage in Hm. rewrite nsum_sum in Hm.
      destruct (split_sizes_spec (group_sizes op) row Hgs Hm) as [_ Hlen].
      assert (nth_error (map (@List.length A) (split_sizes (group_sizes op) row)) k = Some (group_size op g)) as E.
      { rewrite Hlen. unfold group_sizes. rewrite nth_error_map, Hk. reflexivity. }
      rewrite nth_error_map in E.
      destruct (nth_error (split_sizes (group_sizes op) row) k) as [c|] eqn:Ec; [|discriminate].
      simpl in E. erewrite nth_error_nth by exact Ec. congruence. }
    clear Hm Hgs Hne. revert H. generalize (group_sizes op). intros gs H.
    assert (forall (l : list string) off, (forall k g, nth_error l k = Some g ->
       shaped (List.length m) (group_size op g) (map (fun row => nth (off + k) (split_sizes gs row) []) m)) ->
       Forall2 (fun a g => shaped (List.length m) (group_size op g) a)
         (map (fun k => map (fun row => nth k (split_sizes gs row) []) m) (seq off (List.length l))) l) as G.
    { intros l; induction l as [|g r IH]; intros off HH; simpl; constructor.
      - specialize (HH 0 g eq_refl). now rewrite Nat.add_0_r in HH.
      - apply IH. intros k g' Hk. specialize (HH (S k) g' Hk). now rewrite Nat.add_succ_r in HH. }
    apply G. exact H.
  - intros i Hi. rewrite map_map.
    transitivity (concat (split_sizes (group_sizes op) (nth i m []))).
    + f_equal. apply list_eq_nth with (d := []).
      * rewrite map_length, seq_length. rewrite split_sizes_length by assumption.
        unfold group_sizes. now rewrite map_length.
      * rewrite map_length, seq_length. intros k Hk.
        rewrite nth_indep with (d' := nth i (map (fun row => nth 0 (split_sizes (group_sizes op) row) []) m) [])
          by (now rewrite map_length, seq_length).
        rewrite map_nth with (f := fun k => nth i (map (fun row => nth k (split_sizes (group_sizes op) row) []) m) []) (d := 0).
        rewrite seq_nth by assumption. simpl.
        rewrite nth_indep with (d' := nth k (split_sizes (group_sizes op) []) []) by (now rewrite map_length).
        rewrite map_nth with (f := fun row => nth k (split_sizes (group_sizes op) row) []). reflexivity.
    + apply split_sizes_spec; [assumption|]. rewrite <- nsum_sum. rewrite Forall_forall in Hm.
      apply Hm. now apply nth_In.
Qed.
End Flat.
