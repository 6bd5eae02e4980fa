From Verif Require Import Base RBase TreeModel TreeProofs UtilsModel UtilsProofs UtilsProofs2 IoModel IoProofs IoProps AlgModel AlgSpec.

Local Open Scope nat_scope.
Lemma index_seq : forall l, NoDup l -> forall off, mapM (fun n => bind (get_var_index l n) (fun i => fmap (Nat.add i) (Ok off))) l = Ok (seq off (List.length l)).
Proof.
  intros l ND off. assert (forall pre suf, l = pre ++ suf -> mapM (fun n => bind (get_var_index l n) (fun i => fmap (Nat.add i) (Ok off))) suf = Ok (seq (List.length pre + off) (List.length suf))) as H.
  { intros pre suf; revert pre. induction suf as [|a suf IH]; intros pre E; [reflexivity|]. cbn [mapM]. unfold get_var_index at 1. rewrite (index_of_nth l ND (List.length pre) a) by (rewrite E, nth_error_app2, Nat.sub_diag; [reflexivity|lia]).
    rewrite (IH (pre ++ [a])) by (rewrite E, <- app_assoc; reflexivity). simpl. rewrite app_length. simpl. repeat f_equal. lia. }
  apply (H [] l eq_refl).
Qed.
Lemma mapM_ext_in : forall A B (f g : A -> result B) l, (forall a, In a l -> f a = g a) -> mapM f l = mapM g l.
Proof. intros A B f g l H. induction l as [|a l IH]; [reflexivity|]. cbn [mapM]. rewrite H by now left. rewrite IH; [reflexivity|]. intros b Hb. apply H. now right. Qed.

Lemma nth_error_fs : forall A (l : list A) k o i, i < k -> nth_error (firstn k (skipn o l)) i = nth_error l (i + o).
Proof.
  intros A l k o i Hi. revert o k i Hi. induction l as [|a l IH]; intros o k i Hi.
  - rewrite skipn_nil, firstn_nil. generalize (i + o). intros [|n]; destruct i; reflexivity.
  - destruct o as [|o].
    + rewrite Nat.add_0_r. cbn [skipn]. destruct k; [lia|]. destruct i; [reflexivity|]. simpl. specialize (IH 0 k i ltac:(lia)). rewrite Nat.add_0_r in IH. exact IH.
    + rewrite Nat.add_succ_r. cbn [skipn nth_error]. now apply IH.
Qed.

Lemma make_vector_ok : forall names (d : dict R), incl names (keys d) -> exists v, make_vector names d = Ok v /\ List.length v = List.length names /\ forall i n, nth_error names i = Some n -> nth_error v i = dget n d.
Proof.
  intros names d H. unfold make_vector. rewrite (proj2 (proj1 (check_keys_ok _ _)) H). cbn [bind]. induction names as [|a names IH].
  - exists []. repeat split; intros [|i] n E; discriminate.
  - destruct IH as (v & E & L & P); [intros z Hz; apply H; now right|]. cbn [mapM]. unfold lookup_err at 1. assert (In a (keys d)) as Ha by (apply H; now left). apply dget_some_iff in Ha. destruct Ha as [w Hw]. rewrite Hw, E. simpl. exists (w :: v). split; [reflexivity|]. split; [simpl; lia|].
    intros [|i] n En; simpl in *; [injection En as <-; now rewrite Hw|now apply P].
Qed.
Lemma vget_app : forall (a b : list R) i, vget i (a ++ b) = if Nat.ltb i (List.length a) then vget i a else vget (i - List.length a) b.
Proof. intros a b i. unfold vget. destruct (Nat.ltb_spec i (List.length a)); [now apply app_nth1|now apply app_nth2]. Qed.
Section P.
Variable nm : string -> list string.
Variable forward : dict R -> dict R -> R -> result (dict R * dict R).
Variable mesh : R.
Hypothesis HN : names_ok nm.
Hypothesis HF : forward_ok nm forward mesh.
Let ns := List.length (nm "states").
Let ni := List.length (nm "inputs").
Let nc := List.length (nm "con_outputs").
Let nr := List.length (nm "residuals").

Lemma len_sd : List.length (nm "states_dot") = ns.
Proof using HN. unfold ns. destruct HN as [-> _]. reflexivity. Qed.
Lemma nvar : num_implicit_var nm = ns + ni + ns + nc.
Proof using HN. unfold num_implicit_var, flat_groups. cbn [flat_map]. rewrite !app_length, len_sd. simpl. fold ns ni nc. lia. Qed.
Lemma nres : num_implicit_res nm = ns + nc + nr.
Proof using. reflexivity. Qed.

Definition off (g : string) : nat := if String.eqb g "states" then 0 else if String.eqb g "inputs" then ns else if String.eqb g "states_dot" then ns + ni else ns + ni + ns.
Lemma off_ok : forall g, In g flat_groups -> offset_of nm flat_groups g = Ok (off g).
Proof using HN.
  intros g Hg. pose proof len_sd as L. unfold flat_groups, off in *. destruct Hg as [<-|[<-|[<-|[<-|[]]]]]; cbn; rewrite ?L; fold ns ni; f_equal; lia.
Qed.
Lemma group_indices : forall g, In g flat_groups -> get_group_indices_in_flat nm g = Ok (seq (off g) (List.length (nm g))).
Proof using HN.
  intros g Hg. unfold get_group_indices_in_flat, get_var_index_in_flat. rewrite off_ok by assumption. apply index_seq. destruct HN as (_ & ND & _). apply ND. now right.
Qed.
Lemma var_index : forall g n i, In g flat_groups -> nth_error (nm g) i = Some n -> get_var_index_in_flat nm g n = Ok (i + off g).
Proof using HN.
  intros g n i Hg Hn. unfold get_var_index_in_flat, get_var_index. rewrite (index_of_nth (nm g)) with (i := i); [|destruct HN as (_ & ND & _); apply ND; now right|assumption]. rewrite off_ok by assumption. reflexivity.
Qed.
Lemma belongs_iff : forall g j, In g flat_groups -> (belongs nm g j <-> off g <= j < off g + List.length (nm g)).
Proof using HN.
  intros g j Hg. split.
  - intros [n E]. unfold get_var_index_in_flat, get_var_index in E. destruct (index_of n (nm g)) as [i|] eqn:Ei; [|discriminate]. rewrite off_ok in E by assumption. cbn [bind fmap] in E. injection E as <-. destruct (index_of_lt _ _ _ Ei). lia.
  - intros H. destruct (nth_error (nm g) (j - off g)) as [n|] eqn:E; [|apply nth_error_None in E; lia]. exists n. rewrite (var_index g n _ Hg E). f_equal. lia.
Qed.

Definition part (g : string) (x : list R) : list R := firstn (List.length (nm g)) (skipn (off g) x).
Lemma part_len : forall g x, In g flat_groups -> List.length x = num_implicit_var nm -> List.length (part g x) = List.length (nm g).
Proof using HN.
  intros g x Hg L. rewrite nvar in L. unfold part. rewrite firstn_length, skipn_length, L. pose proof len_sd. unfold off, flat_groups in *. destruct Hg as [<-|[<-|[<-|[<-|[]]]]]; cbn; fold ns ni nc; lia.
Qed.
Lemma split_part : forall x g, List.length x = num_implicit_var nm -> In g flat_groups -> dget g (split_flat nm x) = Some (part g x).
Proof using HN.
  intros x g L Hg. assert (exists p, dget g (split_flat nm x) = Some p) as [p Ep].
  { unfold split_flat, flat_groups in *. simpl. destruct Hg as [<-|[<-|[<-|[<-|[]]]]]; simpl; eauto. }
  rewrite Ep. f_equal. destruct (offset_split R nm flat_groups g (off g) x p (off_ok g Hg) ltac:(discriminate) L Ep) as [Lp Hp].
  apply nth_error_ext. intro i. pose proof (part_len g x Hg L) as LP. destruct (Nat.lt_ge_cases i (List.length (nm g))) as [Hi|Hi].
  - rewrite Hp by assumption. unfold part. now rewrite nth_error_fs.
  - rewrite !(proj2 (nth_error_None _ _)); [reflexivity|lia|lia].
Qed.

Lemma part_value : forall x g n v, List.length x = num_implicit_var nm -> In g flat_groups -> (value_of nm x g n v <-> exists i, nth_error (nm g) i = Some n /\ nth_error (part g x) i = Some v).
Proof using HN.
  intros x g n v L Hg. split.
  - intros (j & E & Hv). unfold get_var_index_in_flat, get_var_index in E. destruct (index_of n (nm g)) as [i|] eqn:Ei; [|discriminate]. rewrite off_ok in E by assumption. cbn [bind fmap] in E. injection E as <-.
    destruct (index_of_lt _ _ _ Ei) as [Hi Ni]. exists i. split; [assumption|]. unfold part. now rewrite nth_error_fs.
  - intros (i & Hn & Hv). exists (i + off g). split; [now apply var_index|]. unfold part in Hv. rewrite nth_error_fs in Hv; [assumption|]. apply nth_error_Some. congruence.
Qed.
Lemma part_dict : forall x g, List.length x = num_implicit_var nm -> In g flat_groups -> group_dict nm x g (combine (nm g) (part g x)).
Proof using HN.
  intros x g L Hg. pose proof (part_len g x Hg L) as LP. split; [apply keys_combine; lia|]. intros n v. rewrite part_value by assumption. assert (NoDup (nm g)) as ND by (destruct HN as (_ & ND & _); apply ND; now right). split.
  - intro E. destruct (in_dec string_dec n (nm g)) as [Hn|Hn]; [|rewrite dget_combine_notin in E by assumption; discriminate]. split; [assumption|].
    destruct (In_nth_error _ _ Hn) as [i Ei]. exists i. split; [assumption|]. destruct (nth_error (part g x) i) as [w|] eqn:Ew; [|apply nth_error_None in Ew; assert (i < List.length (nm g)) by (apply nth_error_Some; congruence); lia].
    rewrite (dget_combine _ (nm g) (part g x) i n w ND Ei Ew) in E. exact E.
  - intros (_ & i & E1 & E2). now apply (dget_combine _ (nm g) (part g x) i).
Qed.

(** the model's values as functions of states and inputs *)
Lemma extract_ok : forall g (d : dict R), In g ("residuals" :: flat_groups) -> incl (nm g) (keys d) -> exists e, extract nm g d = Ok e /\ incl (nm g) (keys e) /\ forall n, In n (nm g) -> dget n e = dget n d.
Proof using HN.
  intros g d Hg H. assert (NoDup (nm g)) as ND by (destruct HN as (_ & ND & _); now apply ND). unfold extract.
  assert (exists vs, List.length vs = List.length (nm g) /\ mapM (fun c => fmap (pair c) (lookup_err c d)) (nm g) = Ok (combine (nm g) vs) /\ forall i n, nth_error (nm g) i = Some n -> nth_error vs i = dget n d) as (vs & L & E & P).
  { clear ND. induction (nm g) as [|a names IH].
    - exists []. repeat split; intros [|i] n E; discriminate.
    - destruct IH as (v & L & E & P); [intros z Hz; apply H; now right|]. cbn [mapM]. unfold lookup_err at 1. assert (In a (keys d)) as Ha by (apply H; now left). apply dget_some_iff in Ha. destruct Ha as [w Hw]. rewrite Hw, E. simpl. exists (w :: v). split; [simpl; lia|]. split; [reflexivity|].
      intros [|i] n En; simpl in *; [injection En as <-; now rewrite Hw|now apply P]. }
  rewrite E. cbn [fmap]. rewrite dict_of_list_nodup by (change (NoDup (keys (combine (nm g) vs))); rewrite keys_combine by lia; assumption). exists (combine (nm g) vs). split; [reflexivity|]. split; [rewrite keys_combine by lia; apply incl_refl|].
  intros n Hn. destruct (In_nth_error _ _ Hn) as [i Ei]. specialize (P i n Ei). destruct (nth_error vs i) as [w|] eqn:Ew; [|apply nth_error_None in Ew; assert (i < List.length (nm g)) by (apply nth_error_Some; congruence); lia]. rewrite <- P. now apply (dget_combine _ (nm g) vs i).
Qed.
Lemma fwa_ok : forall a b, List.length a = ns -> List.length b = ni -> exists sd out v1 v2 v3 v4, forward (combine (nm "states") a) (combine (nm "inputs") b) mesh = Ok (sd, out) /\
  forward_with_arrays nm forward a b mesh = Ok (v1, v2, v3, v4) /\ List.length v1 = ns /\ List.length v3 = nc /\ List.length v4 = nr /\
  (forall i n, nth_error (nm "states") i = Some n -> nth_error v1 i = dget n sd) /\ (forall i n, nth_error (nm "con_outputs") i = Some n -> nth_error v3 i = dget n out) /\
  (forall i n, nth_error (nm "residuals") i = Some n -> nth_error v4 i = dget n out) /\ incl (nm "states") (keys sd) /\ incl (nm "outputs") (keys out).
Proof using HN HF.
  intros a b La Lb. destruct HN as (Esd & ND & I1 & I2). destruct (HF (combine (nm "states") a) (combine (nm "inputs") b)) as (sd & out & E & K1 & K2); [apply keys_combine; unfold ns in *; lia|apply keys_combine; unfold ni in *; lia|].
  unfold forward_with_arrays. rewrite !array_to_dict_ok; [|apply ND; unfold flat_groups; simpl; auto|unfold ni in *; lia|apply ND; unfold flat_groups; simpl; auto|unfold ns in *; lia]. cbn [bind]. rewrite E. cbn [bind fst snd].
  destruct (make_vector_ok (nm "states_dot") sd K1) as (v1 & -> & L1 & P1). destruct (make_vector_ok (nm "outputs") out K2) as (v2 & -> & L2 & P2). cbn [bind].
  destruct (extract_ok "con_outputs" out ltac:(unfold flat_groups; simpl; auto 6) ltac:(now apply (incl_tran I1))) as (dc & -> & Kc & Pc). cbn [bind].
  destruct (make_vector_ok (nm "con_outputs") dc Kc) as (v3 & -> & L3 & P3). cbn [bind].
  destruct (extract_ok "residuals" out ltac:(unfold flat_groups; simpl; auto 6) ltac:(now apply (incl_tran I2))) as (dr & -> & Kr & Pr). cbn [bind].
  destruct (make_vector_ok (nm "residuals") dr Kr) as (v4 & -> & L4 & P4). cbn [bind].
  exists sd, out, v1, v2, v3, v4. rewrite Esd in L1, P1, K1. repeat (split; [first [assumption|reflexivity]|]). split; [|split; [|split; assumption]].
  - intros i n Hn. rewrite (P3 i n Hn). apply Pc. eapply nth_error_In; eauto.
  - intros i n Hn. rewrite (P4 i n Hn). apply Pr. eapply nth_error_In; eauto.
Qed.
Definition core (a b : list R) : list R * list R * list R := match forward_with_arrays nm forward a b mesh with Ok (v1, _, v3, v4) => (v1, v3, v4) | Raise _ => ([], [], []) end.
Lemma core_len : forall a b, List.length a = ns -> List.length b = ni -> let '(v1, v3, v4) := core a b in List.length v1 = ns /\ List.length v3 = nc /\ List.length v4 = nr.
Proof using HN HF. intros a b La Lb. unfold core. destruct (fwa_ok a b La Lb) as (sd & out & v1 & v2 & v3 & v4 & _ & -> & H1 & H2 & H3 & _). auto. Qed.
Lemma flat_implicit_core : forall x, List.length x = num_implicit_var nm ->
  flat_implicit nm forward x mesh = Ok (let '(v1, v3, v4) := core (part "states" x) (part "inputs" x) in vsub v1 (part "states_dot" x) ++ vsub v3 (part "con_outputs" x) ++ v4).
Proof using HN HF.
  intros x L. unfold flat_implicit. rewrite !split_part by (try assumption; unfold flat_groups; simpl; auto). cbn zeta. unfold implicit, core.
  destruct (fwa_ok (part "states" x) (part "inputs" x)) as (sd & out & v1 & v2 & v3 & v4 & _ & -> & _); [apply part_len; [unfold flat_groups; simpl; auto|assumption]|apply part_len; [unfold flat_groups; simpl; auto|assumption]|]. reflexivity.
Qed.
(** component by component *)
Definition comp (r : nat) (a b : list R) : R := let '(v1, v3, v4) := core a b in vget r (v1 ++ v3 ++ v4).
Definition lin (r : nat) : option nat := if Nat.ltb r ns then Some (ns + ni + r) else if Nat.ltb r (ns + nc) then Some (ns + ni + r) else None.
Lemma vget_part : forall g x i, i < List.length (nm g) -> vget i (part g x) = vget (off g + i) x.
Proof using HN.
  intros g x i Hi. unfold vget. pose proof (nth_error_fs R x (List.length (nm g)) (off g) i Hi) as E. unfold part. rewrite Nat.add_comm in E.
  destruct (nth_error x (off g + i)) as [v|] eqn:E2.
  - rewrite (nth_error_nth _ _ _ E2). now apply nth_error_nth.
  - rewrite (nth_overflow x) by (now apply nth_error_None). apply nth_overflow. now apply nth_error_None.
Qed.
Lemma residual_comp : forall x r, List.length x = num_implicit_var nm -> r < ns + nc + nr ->
  vget r (residual nm forward mesh x) = (comp r (part "states" x) (part "inputs" x) - match lin r with Some j => vget j x | None => 0 end)%R.
Proof using HN HF.
  intros x r L Hr. unfold residual. rewrite flat_implicit_core by assumption. unfold comp.
  assert (List.length (part "states" x) = ns) as La by (apply part_len; [unfold flat_groups; simpl; auto|assumption]). assert (List.length (part "inputs" x) = ni) as Lb by (apply part_len; [unfold flat_groups; simpl; auto|assumption]).
  assert (List.length (part "states_dot" x) = ns) as Lc by (rewrite part_len; [apply len_sd|unfold flat_groups; simpl; auto|assumption]). assert (List.length (part "con_outputs" x) = nc) as Ld by (apply part_len; [unfold flat_groups; simpl; auto|assumption]).
  pose proof (core_len _ _ La Lb) as CL. destruct (core _ _) as [[v1 v3] v4]. destruct CL as (L1 & L3 & L4). rewrite !vget_app. unfold vsub. rewrite !map2_length by congruence. rewrite L1, L3. unfold lin.
  destruct (Nat.ltb_spec r ns) as [H1|H1].
  - unfold vget. rewrite (map2_nth _ _ _ _ _ _ r 0%R 0%R) by lia. f_equal. change (vget r (part "states_dot" x) = vget (ns + ni + r) x). apply vget_part. rewrite len_sd. assumption.
  - destruct (Nat.ltb_spec (r - ns) nc) as [H2|H2]; destruct (Nat.ltb_spec r (ns + nc)) as [H3|H3]; try lia.
    + unfold vget. rewrite (map2_nth _ _ _ _ _ _ (r - ns) 0%R 0%R) by lia. f_equal. change (vget (r - ns) (part "con_outputs" x) = vget (ns + ni + r) x). rewrite vget_part by assumption. f_equal. unfold off. cbn. lia.
    + lra.
Qed.
Lemma part_upd : forall g x j t, (j < off g \/ off g + List.length (nm g) <= j) -> part g (upd j t x) = part g x.
Proof using HN.
  intros g x j t H. unfold part. apply nth_error_ext. intro i. destruct (Nat.lt_ge_cases i (List.length (nm g))) as [Hi|Hi].
  - rewrite !nth_error_fs by assumption. assert (i + off g <> j) as Hne by lia. revert Hne. generalize (i + off g). clear. intros n. revert j n. induction x as [|a x IH]; intros j n Hne; [now destruct j|].
    destruct j, n; cbn [upd nth_error]; try reflexivity; [lia|]. apply IH. lia.
  - rewrite !(proj2 (nth_error_None _ _)); [reflexivity|rewrite firstn_length; lia|rewrite firstn_length; lia].
Qed.
End P.
