(** Property theorems C08, C09, continued: which problems and arguments are accepted. *)
From Verif Require Import Base TreeModel UtilsModel UtilsProofs UtilsProofs2 IoModel IoProofs.
From Coq Require FinFun.

(** *** C08: variables of different groups may share a name; only repeated names within a group (or repeated groups, or repeated globals) are refused *)
Theorem C08_accepts : forall m ni ns sg gn, (forall g, In g sg -> exists l, dget g m = Some l /\ NoDup l) ->
  NoDup sg -> NoDup gn -> (forall g, In g sg -> no_char dot g = true) ->
  exists op, make_dvo m ni ns sg gn = Ok op /\ sgroups op = sg /\ gnames op = gn /\ nintervals op = ni /\ nspi op = ns /\
    (forall g l, In g sg -> dget g m = Some l -> gnames_of op g = l) /\ num_global_var op = List.length gn.
Proof.
  intros m ni ns sg gn HG NS NG HD. unfold make_dvo. set (op := {| mvn := m; sgroups := sg; gnames := gn; nintervals := ni; nspi := ns |}).
  destruct (mapM_exists _ _ (group_names op) (fun _ _ => True) sg) as (ys & -> & _).
  { intros g Hg. destruct (HG g Hg) as (l & El & _). exists l. split; [|exact I]. unfold group_names. cbn [mvn op]. now rewrite El. }
  assert (NoDup (stage_var_names op)) as ND.
  { unfold stage_var_names. cbn [sgroups op]. clear ys. revert NS HG HD. induction sg as [|g r IH]; intros NS HG HD; [constructor|]. cbn [flat_map].
    apply NoDup_cons_iff in NS. destruct NS as [Hg NS]. destruct (HG g (or_introl eq_refl)) as (l & El & NL).
    assert (gnames_of op g = l) as -> by (unfold gnames_of; cbn [mvn op]; now rewrite El).
    assert (NoDup (map (svname g) l)) as N1.
    { apply FinFun.Injective_map_NoDup; [|assumption]. intros a b E. pose proof (HD g (or_introl eq_refl)) as D. now destruct (prefixed_inj g a g b D D E). }
    assert (NoDup (flat_map (fun g0 => map (svname g0) (gnames_of op g0)) r)) as N2 by (apply IH; auto; intros; [apply HG|apply HD]; now right).
    assert (forall v, In v (map (svname g) l) -> In v (flat_map (fun g0 => map (svname g0) (gnames_of op g0)) r) -> False) as DJ.
    { intros v H1 H2. apply in_map_iff in H1. destruct H1 as (a & <- & _). apply in_flat_map in H2. destruct H2 as (g' & Hg' & H2). apply in_map_iff in H2. destruct H2 as (b & E & _).
      destruct (prefixed_inj g' b g a (HD g' (or_intror Hg')) (HD g (or_introl eq_refl)) E) as [-> _]. contradiction. }
    revert N1 N2 DJ. generalize (map (svname g) l) as A, (flat_map (fun g0 => map (svname g0) (gnames_of op g0)) r) as B. clear. induction A as [|a A IH]; intros B N1 N2 DJ; [exact N2|].
    apply NoDup_cons_iff in N1. destruct N1 as [Ha N1]. cbn. constructor; [|apply IH; auto; intros v H1 H2; apply (DJ v); auto; now right].
    intro H. apply in_app_iff in H. destruct H as [H|H]; [contradiction|]. apply (DJ a); [now left|assumption]. }
  apply nodupb_spec in ND. apply nodupb_spec in NG. rewrite ND, NG. cbn [negb]. exists op. repeat split; try reflexivity.
  intros g l _ El. unfold gnames_of. cbn [mvn op]. now rewrite El.
Qed.
Print Assumptions C08_accepts.
Example C08_accepts_nonvacuous : exists op, make_dvo [("states", ["x"; "v"]); ("states_dot", ["x"; "v"])] 2 2 ["states"; "states_dot"] ["mesh_scale"] = Ok op /\
  num_dec op = 13 /\ index_at op "states" "v" 0 <> index_at op "states_dot" "v" 0.
Proof. eexists. split; [reflexivity|]. split; [reflexivity|]. vm_compute. discriminate. Qed.

(** *** C09: an array given for a global variable is refused *)
Theorem C09_array_for_global : forall A op (kw : dict (field A)), (forall n, In n (gnames op) -> In n (keys kw)) ->
  (exists n a, In n (gnames op) /\ dget n kw = Some (FArr a)) -> flatten_var op kw = Raise AssertionError.
Proof.
  intros A op kw HK (n & a & Hn & En). unfold flatten_var.
  enough (mapM (fun n => bind (lookup_err n kw) as_scalar) (gnames op) = Raise AssertionError) as -> by reflexivity.
  revert HK Hn. generalize (gnames op) as l. induction l as [|b l IH]; intros HK Hn; [contradiction|]. cbn [mapM].
  unfold lookup_err at 1. destruct (dget b kw) as [f|] eqn:Eb.
  2: { exfalso. apply dget_none in Eb. apply Eb. apply HK. now left. }
  cbn [bind]. destruct Hn as [->|Hn].
  - rewrite En in Eb. injection Eb as <-. reflexivity.
  - destruct f as [r|v]; [reflexivity|]. cbn [as_scalar bind]. rewrite IH; [reflexivity| |assumption]. intros; apply HK; now right.
Qed.
Print Assumptions C09_array_for_global.
(** ... and a scalar given for a stage group, when the globals are in order *)
Theorem C09_scalar_for_group : forall A op (kw : dict (field A)), NoDup (sgroups op ++ gnames op) -> (forall n, In n (gnames op) -> exists v, dget n kw = Some (FSc v)) ->
  (forall g, In g (sgroups op) -> In g (keys kw)) -> (exists g v, In g (sgroups op) /\ dget g kw = Some (FSc v)) -> flatten_var op kw = Raise ValueError.
Proof.
  intros A op kw ND HG HK (g & v & Hg & Eg). unfold flatten_var.
  destruct (mapM_exists _ _ (fun n => bind (lookup_err n kw) as_scalar) (fun _ _ => True) (gnames op)) as (gl & -> & _).
  { intros n Hn. destruct (HG n Hn) as [w Ew]. exists w. split; [|exact I]. unfold lookup_err. now rewrite Ew. }
  cbn [bind]. set (kw' := fold_left _ (gnames op) kw).
  assert (forall q, ~ In q (gnames op) -> dget q kw' = dget q kw) as K.
  { unfold kw'. clear. generalize kw as d. induction (gnames op) as [|a l IH]; intros d q H; [reflexivity|]. cbn [fold_left]. rewrite IH by (intro C; apply H; now right).
    apply dget_ddel_other. intros ->. apply H. now left. }
  assert (forall q, In q (sgroups op) -> ~ In q (gnames op)) as DJ.
  { intros q H1 H2. clear -ND H1 H2. induction (sgroups op) as [|a l IH]; [contradiction|]. cbn in ND. apply NoDup_cons_iff in ND. destruct ND as [Ha ND]. destruct H1 as [->|H1]; [apply Ha, in_app_iff; now right|auto]. }
  enough (mapM (fun g => bind (lookup_err g kw') as_array) (sgroups op) = Raise ValueError) as -> by reflexivity.
  clear ND. revert HK Hg DJ. generalize (sgroups op) as l. induction l as [|b l IH]; intros HK Hg DJ; [contradiction|]. cbn [mapM].
  unfold lookup_err at 1. rewrite K by (apply DJ; now left). destruct (dget b kw) as [f|] eqn:Eb.
  2: { exfalso. apply dget_none in Eb. apply Eb. apply HK. now left. }
  cbn [bind]. destruct Hg as [->|Hg].
  - rewrite Eg in Eb. injection Eb as <-. reflexivity.
  - destruct f as [r|w]; [|reflexivity]. cbn [as_array bind]. rewrite IH; [reflexivity| |assumption|]; intros; [apply HK|apply DJ]; now right.
Qed.
Print Assumptions C09_scalar_for_group.
Example C09_refused_nonvacuous : let op := {| mvn := [("states", ["x"])]; sgroups := ["states"]; gnames := ["s"]; nintervals := 1; nspi := 2 |} in
  flatten_var op [("states", FArr [[1]; [2]]); ("s", FArr [[3]])] = Raise AssertionError /\ flatten_var op [("states", FSc 1); ("s", FSc 3)] = Raise ValueError /\
  flatten_var op [("states", FArr [[1]; [2]]); ("s", FSc 3)] = Ok [1; 2; 3].
Proof. repeat split. Qed.
