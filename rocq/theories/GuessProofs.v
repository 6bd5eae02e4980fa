(** Initial guesses: a decision vector from the states and inputs at all stages, with the model evaluated there. *)
From Verif Require Import Base RBase TreeModel UtilsModel UtilsProofs UtilsProofs2 IoModel IoProofs CollocModel CollocProofs CollocProps MeshModel MeshProps OcpModel OcpProofs OcpSpec OcpProps NlpModel NlpProofs
  AlgModel AlgSpec AlgProofs IoProps ConvModel ConvSpec ObjModel ObjProofs BoundModel BoundSpec BoundProofs ScaleModel ScaleSpec BuildModel BuildSpec BuildProofs BuildProofs2 BuildProofs3 BuildProofs4 BuildProofs5 LapModel.

Lemma rows_forward_ok : forall f ss us ds (Q : nat -> list R -> list R -> Prop), List.length us = List.length ss -> List.length ds = List.length ss ->
  (forall k, (k < List.length ss)%nat -> exists v1 v2 v3 v4, f (nth k ss []) (nth k us []) (nth k ds 0) = Ok (v1, v2, v3, v4) /\ Q k v1 v3) ->
  exists ret, rows_forward f ss us ds = Ok ret /\ List.length ret = List.length ss /\ forall k, (k < List.length ss)%nat -> Q k (fst (nth k ret ([], []))) (snd (nth k ret ([], []))).
Proof.
  intros f. induction ss as [|s ss IH]; intros [|u us] [|d ds] Q Lu Ld H; try discriminate.
  - exists []. split; [reflexivity|]. split; [reflexivity|]. intros k Hk. cbn in Hk. lia.
  - destruct (H 0%nat ltac:(cbn; lia)) as (v1 & v2 & v3 & v4 & E & HQ). cbn [nth] in E. cbn [rows_forward]. rewrite E. cbn [bind].
    destruct (IH us ds (fun k => Q (S k))) as (ret & E2 & L & K); [now injection Lu|now injection Ld|intros k Hk; apply (H (S k)); cbn; lia|]. rewrite E2. cbn [bind]. exists ((v1, v3) :: ret). split; [reflexivity|]. split; [cbn; now f_equal|].
    intros [|k] Hk; cbn [nth fst snd]; [exact HQ|]. apply K. cbn in Hk. lia.
Qed.

Section Guess.
Variables (roots : list R -> list R) (tn : string) (tns : option nat) (n : nat) (pts : option (list R)) (fixed : option R) (o : ocp).
Context {P : Type}.
Variables (M : smodel P) (con : list string).
Hypothesis B : OcpSpec.built roots tn tns n (m_states M) (m_inputs M) con pts fixed o.
Hypothesis MO : model_ok M con.
Let nm := names_of M con.
Let op := oc_op o.

Lemma flat_guess : forall SS UU ds p extra, shaped (num_stages op) (List.length (m_states M)) SS -> shaped (num_stages op) (List.length (m_inputs M)) UU -> List.length ds = num_stages op ->
  extra = match fixed with Some _ => [] | None => match extra with [(_, FSc v)] => [("mesh_scale", FSc v)] | _ => [("mesh_scale", FSc 0)] end end ->
  exists ret x, rows_forward (forward_with_arrays nm (m_forward M p)) SS UU ds = Ok ret /\
    flatten_var op ([("states", FArr SS); ("inputs", FArr UU); ("states_dot", FArr (map fst ret)); ("con_outputs", FArr (map snd ret))] ++ extra) = Ok x /\ List.length x = num_dec op /\
    (forall k q c, (k < num_stages op)%nat -> nth_error (m_states M) c = Some q -> val o x "states" q k (nth c (nth k SS []) 0)) /\
    (forall k q c, (k < num_stages op)%nat -> nth_error (m_inputs M) c = Some q -> val o x "inputs" q k (nth c (nth k UU []) 0)) /\
    (forall v, fixed = None -> extra = [("mesh_scale", FSc v)] -> val o x "global" "mesh_scale" 0 v) /\
    forall k, (k < num_stages op)%nat -> exists sd out, holds o x "states" (m_states M) k (combine (m_states M) (nth k SS [])) /\ holds o x "inputs" (m_inputs M) k (combine (m_inputs M) (nth k UU [])) /\
      m_forward M p (combine (m_states M) (nth k SS [])) (combine (m_inputs M) (nth k UU [])) (nth k ds 0) = Ok (sd, out) /\
      (forall q, In q (m_states M) -> exists v, dget q sd = Some v /\ val o x "states_dot" q k v) /\ (forall q, In q con -> exists v, dget q out = Some v /\ val o x "con_outputs" q k v).
Proof using B MO.
  intros SS UU ds p extra HS HU Ld HE. pose proof (built_ok _ _ _ _ _ _ _ _ _ _ B) as (K & Hn & Hd & _ & _ & Es & Esd & _ & EF & Ei & Ec & _). fold op in Es, Esd, Ei, Ec.
  pose proof (mo_names _ _ MO) as HN. fold nm in HN. pose proof (mo_forward _ _ MO) as HFw.
  destruct HS as [LS FS]. destruct HU as [LU FU].
  assert (nm "states" = m_states M) as N1 by reflexivity. assert (nm "inputs" = m_inputs M) as N2 by reflexivity. assert (nm "con_outputs" = con) as N3 by reflexivity.
  assert (forall k, (k < num_stages op)%nat -> List.length (nth k SS []) = List.length (m_states M)) as RS by (intros k Hk; apply (shaped_nth (num_stages op) _ SS k); [split; assumption|assumption]).
  assert (forall k, (k < num_stages op)%nat -> List.length (nth k UU []) = List.length (m_inputs M)) as RU by (intros k Hk; apply (shaped_nth (num_stages op) _ UU k); [split; assumption|assumption]).
  destruct (rows_forward_ok (forward_with_arrays nm (m_forward M p)) SS UU ds (fun k v1 v3 => List.length v1 = List.length (m_states M) /\ List.length v3 = List.length con /\
    exists sd out, m_forward M p (combine (m_states M) (nth k SS [])) (combine (m_inputs M) (nth k UU [])) (nth k ds 0) = Ok (sd, out) /\ incl (m_states M) (keys sd) /\ incl (nm "outputs") (keys out) /\
    (forall i q, nth_error (m_states M) i = Some q -> nth_error v1 i = dget q sd) /\ (forall i q, nth_error con i = Some q -> nth_error v3 i = dget q out))) as (ret & ER & LR & HR); [congruence|congruence| |].
  { intros k Hk. rewrite LS in Hk. destruct (fwa_ok nm (m_forward M p) (nth k ds 0) HN (HFw p _) (nth k SS []) (nth k UU [])) as (sd & out & v1 & v2 & v3 & v4 & A1 & A2 & A3 & A4 & A5 & A6 & A7 & A8 & A9 & A10); [now apply RS|now apply RU|].
    rewrite N1, N2, N3 in *. exists v1, v2, v3, v4. split; [exact A2|]. split; [exact A3|]. split; [exact A4|]. exists sd, out. auto. }
  exists ret. set (kw := _ ++ extra).
  assert (forall g, In g (sgroups op) -> g = "states" \/ g = "inputs" \/ g = "states_dot" \/ g = "con_outputs") as SG. { intros g Hg. unfold op in Hg. rewrite (oo_sg o K) in Hg. cbn in Hg. intuition congruence. }
  assert (kw_ok op kw) as HK.
  { split.
    - intros g Hg. destruct (SG g Hg) as [->|[->|[->| ->]]].
      + exists SS. split; [reflexivity|]. unfold group_size. rewrite Es. split; assumption.
      + exists UU. split; [reflexivity|]. unfold group_size. rewrite Ei. split; assumption.
      + exists (map fst ret). split; [reflexivity|]. unfold group_size. rewrite Esd. split; [rewrite map_length; congruence|]. apply Forall_forall. intros r Hr. apply in_map_iff in Hr. destruct Hr as (z & <- & Hz). apply (In_nth _ _ ([], [])) in Hz. destruct Hz as (k & Hk & <-). apply (HR k). congruence.
      + exists (map snd ret). split; [reflexivity|]. unfold group_size. rewrite Ec. split; [rewrite map_length; congruence|]. apply Forall_forall. intros r Hr. apply in_map_iff in Hr. destruct Hr as (z & <- & Hz). apply (In_nth _ _ ([], [])) in Hz. destruct Hz as (k & Hk & <-). apply (HR k). congruence.
    - intros g Hg. unfold op in Hg. rewrite (oo_gn o K), EF in Hg. destruct fixed; [contradiction|]. destruct Hg as [<-|[]]. unfold kw. rewrite HE. destruct extra as [|[e [v|v]] [|]]; eexists; reflexivity. }
  destruct (unflatten_flatten op kw (NDG o K Hn Hd) (NVS o K Hn Hd) HK) as (x & d & EX & LX & _). exists x. split; [exact ER|]. split; [exact EX|]. split; [exact LX|].
  assert (forall g a k q c, In g (sgroups op) -> NoDup (gnames_of op g) -> dget g kw = Some (FArr a) -> (k < num_stages op)%nat -> nth_error (gnames_of op g) c = Some q -> val o x g q k (nth c (nth k a []) 0)) as VV.
  { intros g a k q c Hg ND Ha Hk Hc. destruct (flat_value o K Hn Hd kw x g q k c a HK EX) as (i & I1 & I2 & I3); auto.
    - destruct (SG g Hg) as [->|[->|[->| ->]]]; discriminate.
    - split; [exact Hg|eapply nth_error_In; exact Hc].
    - now apply index_of_nth.
    - unfold val, value_at, get_var. rewrite I1. cbn [bind]. unfold array_get.
      assert (i < List.length x)%nat as Hi. { rewrite LX. eapply slot_lt. split; [exact Hk|exact I1]. }
      rewrite (nth_error_nth' x 0) by exact Hi. f_equal. exact I2. }
  destruct HN as (_ & ND & _).
  assert (In "states" (sgroups op) /\ In "inputs" (sgroups op) /\ In "states_dot" (sgroups op) /\ In "con_outputs" (sgroups op)) as (S1 & S2 & S3 & S4) by (unfold op; rewrite (oo_sg o K); cbn; tauto).
  assert (NoDup (m_states M)) as ND1 by (apply (ND "states"); cbn; tauto). assert (NoDup (m_inputs M)) as ND2 by (apply (ND "inputs"); cbn; tauto). assert (NoDup con) as ND3 by (apply (ND "con_outputs"); cbn; tauto).
  assert (forall k q c, (k < num_stages op)%nat -> nth_error (m_states M) c = Some q -> val o x "states" q k (nth c (nth k SS []) 0)) as V1. { intros k q c Hk Hc. apply VV; rewrite ?Es; auto. }
  assert (forall k q c, (k < num_stages op)%nat -> nth_error (m_inputs M) c = Some q -> val o x "inputs" q k (nth c (nth k UU []) 0)) as V2. { intros k q c Hk Hc. apply VV; rewrite ?Ei; auto. }
  split; [exact V1|]. split; [exact V2|]. split.
  { intros v EF' EE. rewrite EF' in EF. assert (dget "mesh_scale" kw = Some (FSc v)) as DM by (unfold kw; rewrite EE; reflexivity). destruct (flat_global o K Hn Hd kw x v HK EX EF DM) as [G1 G2].
    destruct (index_scale o K Hn Hd EF) as (I1 & _ & I3). unfold val, value_at, get_var. change (Z.of_nat 0) with 0%Z. rewrite I1. cbn [bind]. unfold array_get. assert (num_all_stage_var op < List.length x)%nat as Hi by (rewrite LX; fold op in I3; rewrite I3; unfold isc; fold op; lia).
    rewrite (nth_error_nth' x 0) by exact Hi. f_equal. exact G1. }
  assert (forall g names row k, NoDup names -> List.length row = List.length names -> (forall c q, nth_error names c = Some q -> val o x g q k (nth c row 0)) -> holds o x g names k (combine names row)) as HH.
  { intros g names row k NDn Lr HV. split; [apply keys_combine; lia|]. intros q v Dq. assert (In q names) as Hq. { rewrite <- (keys_combine _ names row) by lia. apply dget_some_iff. eauto. }
    destruct (In_nth_error _ _ Hq) as [c Hc]. assert (c < List.length names)%nat as Hcl by (apply nth_error_Some; congruence). assert (nth_error row c = Some (nth c row 0)) as Er by (apply nth_error_nth'; lia).
    rewrite (dget_combine _ names row c q (nth c row 0) NDn Hc Er) in Dq. injection Dq as <-. now apply HV. }
  intros k Hk. destruct (HR k ltac:(congruence)) as (L1 & L3 & sd & out & F1 & F2 & F3 & F4 & F5). exists sd, out.
  split; [apply HH; auto|]. split; [apply HH; auto|]. split; [exact F1|]. split.
  - intros q Hq. destruct (In_nth_error _ _ Hq) as [c Hc]. assert (c < List.length (m_states M))%nat as Hcl by (apply nth_error_Some; congruence). exists (nth c (nth k (map fst ret) []) 0). split; [|apply VV; rewrite ?Esd; auto].
    rewrite <- (F4 c q Hc). rewrite (nth_map_in _ _ _ _ _ _ ([], [])) by congruence. apply nth_error_nth'. lia.
  - intros q Hq. destruct (In_nth_error _ _ Hq) as [c Hc]. assert (c < List.length con)%nat as Hcl by (apply nth_error_Some; congruence). exists (nth c (nth k (map snd ret) []) 0). split; [|apply VV; rewrite ?Ec; auto].
    rewrite <- (F5 c q Hc). rewrite (nth_map_in _ _ _ _ _ _ ([], [])) by congruence. apply nth_error_nth'. lia.
Qed.
End Guess.
