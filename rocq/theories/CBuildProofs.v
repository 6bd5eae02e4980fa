(** Lemmas for condensed problems, part 1: a condensed problem and the full problem of the configuration after the call. *)
From Verif Require Import Base RBase TreeModel UtilsModel UtilsProofs IoModel CollocModel CollocProps MeshModel OcpModel OcpSpec NlpModel NlpProofs NlpProofs2 NlpProps NlpProps2 AlgModel AlgSpec ConvModel CyclicModel ObjModel BoundModel BoundSpec ScaleModel ScaleSpec
  BuildModel BuildSpec BuildProofs BuildProofs2 CondModel CBuildModel.

Lemma ccheck_inv : forall P (r : cattrs P * result unit) k, ccheck r = Ok k -> k = fst r /\ snd r = Ok tt.
Proof. intros P [k0 [[]|e]] k H; cbn in *; [injection H as <-; auto|discriminate]. Qed.

(** the scales of the two forms *)
Lemma scales_forms : forall o b s b' s' scs, snd (set_scales o b s scs) = Ok tt -> snd (set_scales o b' s' scs) = Ok tt /\ s_dec (fst (set_scales o b s scs)) = s_dec (fst (set_scales o b' s' scs)) /\
  s_pushed (fst (set_scales o b s scs)) = s_pushed (fst (set_scales o b' s' scs)) /\ (b = b' -> s_alg (fst (set_scales o b s scs)) = s_alg (fst (set_scales o b' s' scs))).
Proof. intros o b s b' s' scs H. unfold set_scales in *. destruct (apply_scales o scs _ _) as [[vs ds] [[]|e]]; cbn in *; [|discriminate]. repeat split. now intros ->. Qed.

(** a condensed problem [k] and a full problem [a] that have the same attributes, but for the scales of the constraints *)
Record twin {P} (k : cattrs P) (a : attrs P) (p : P) (js : list nat * list nat) (scs : option (list scale_config)) : Prop := {
  tw_o : a_o (k_a k) = a_o a; tw_con : a_con (k_a k) = a_con a; tw_pen : a_pen (k_a k) = a_pen a; tw_mesh : a_amesh (k_a k) = a_amesh a;
  tw_p : a_p (k_a k) = a_p a; tw_cyc : a_cyc (k_a k) = a_cyc a; tw_bd : a_bd (k_a k) = a_bd a;
  tw_dec : s_dec (a_sc (k_a k)) = s_dec (a_sc a); tw_pushed : s_pushed (a_sc (k_a k)) = s_pushed (a_sc a);
  tw_kp : k_p k = p; tw_ap : a_p a = p; tw_js : k_js k = js;
  tw_alg : match scs with None => True | Some l => snd (set_scales (a_o a) true (init_scales (a_o a)) l) = Ok tt /\ s_alg (a_sc (k_a k)) = s_alg (fst (set_scales (a_o a) true (init_scales (a_o a)) l)) end }.
Definition no_params {P} (c : scall P) : Prop := match c with SParams _ => False | _ => True end.

Lemma twin_step : forall P (k : cattrs P) a p js scs c, twin k a p js scs -> no_params c ->
  snd (cstep k c) = snd (scall_step a c) /\ (snd (cstep k c) = Ok tt -> (match c with SMesh _ => False | _ => True end) -> twin (fst (cstep k c)) (fst (scall_step a c)) p js (match c with SScales l => Some l | _ => scs end)).
Proof.
  intros P k a p js scs c [T1 T2 T3 T4 T5 T6 T7 T8 T9 T10 T11 T12 T13] Hc. destruct c as [b|l|l|q|s|ps]; cbn [cstep scall_step] in *; try contradiction.
  - rewrite T1, T7. split; [reflexivity|]. intros _ _. constructor; cbn; auto.
  - rewrite T1, T7. split; [reflexivity|]. intros _ _. constructor; cbn; auto.
  - cbn [fst snd]. rewrite T1. destruct (snd (set_scales (a_o a) true (a_sc (k_a k)) l)) as [[]|e] eqn:E.
    + destruct (scales_forms (a_o a) true (a_sc (k_a k)) false (a_sc a) l E) as (E1 & E2 & E3 & _). destruct (scales_forms (a_o a) true (a_sc (k_a k)) true (init_scales (a_o a)) l E) as (E4 & _ & _ & E5). rewrite E1. split; [reflexivity|]. intros _ _. constructor; cbn; auto.
    + split; [|discriminate]. unfold set_scales in *. destruct (apply_scales (a_o a) l _ _) as [[vs ds] [[]|e']]; cbn in *; congruence.
  - rewrite T1. destruct (oc_fixed (a_o a)) eqn:EF; [|split; [reflexivity|discriminate]]. split; [reflexivity|]. intros _ _. constructor; cbn [fst with_a with_o k_a k_p k_js a_o a_con a_pen a_amesh a_p a_cyc a_bd a_sc]; auto.
    destruct scs as [l|]; [|exact I]. change (init_scales (with_fixed (a_o a) s)) with (init_scales (a_o a)). rewrite set_scales_fixed. exact T13.
  - rewrite T1. split; [reflexivity|]. intros _ [].
Qed.
Lemma params_raise : forall P (k : cattrs P) c k', ccheck (cstep k c) = Ok k' -> no_params c.
Proof. intros P k [b|l|l|q|s|ps] k' H; cbn; auto. cbn in H. discriminate. Qed.
Lemma check_of : forall P (r : attrs P * result unit), snd r = Ok tt -> check r = Ok (fst r).
Proof. intros P [a r] H. cbn in *. subst r. reflexivity. Qed.
Lemma ccheck_of : forall P (r : cattrs P * result unit), snd r = Ok tt -> ccheck r = Ok (fst r).
Proof. intros P [a r] H. cbn in *. subst r. reflexivity. Qed.
Lemma plain_mesh : forall P (c : scall P), plain c -> match c with SMesh _ => False | _ => True end.
Proof. intros P []; cbn; auto. Qed.
Lemma twin_calls : forall P cs (k : cattrs P) k' a p js scs, twin k a p js (Some scs) -> Forall plain cs -> ccalls k cs = Ok k' ->
  Forall no_params cs /\ exists a', calls a cs = Ok a' /\ twin k' a' p js (Some (scales_asked scs cs)).
Proof.
  intros P cs; induction cs as [|c cs IH]; intros k k' a p js scs T HP H.
  - injection H as <-. split; [constructor|]. exists a. split; [reflexivity|exact T].
  - cbn [ccalls] in H. apply bind_ok in H. destruct H as (k1 & E1 & H). pose proof (params_raise _ _ _ _ E1) as NP. apply ccheck_inv in E1. destruct E1 as [-> E1]. apply Forall_cons_iff in HP. destruct HP as [P1 P2].
    destruct (twin_step _ k a p js (Some scs) c T NP) as (S1 & S2). specialize (S2 E1 (plain_mesh _ _ P1)).
    assert (exists scs', twin (fst (cstep k c)) (fst (scall_step a c)) p js (Some scs') /\ scales_asked scs (c :: cs) = scales_asked scs' cs) as (scs' & T' & ES).
    { unfold scales_asked, latest. cbn [fold_left]. destruct c; eexists; (split; [exact S2|reflexivity]). }
    destruct (IH _ _ _ _ _ _ T' P2 H) as (N & a' & E & T''). split; [constructor; assumption|]. exists a'. split; [|rewrite ES; exact T'']. cbn [calls]. rewrite (check_of _ (scall_step a c)) by congruence. exact E.
Qed.
Lemma twin_calls_back : forall P cs (k : cattrs P) a a' p js scs, twin k a p js (Some scs) -> Forall plain cs -> Forall no_params cs -> calls a cs = Ok a' ->
  exists k', ccalls k cs = Ok k'.
Proof.
  intros P cs; induction cs as [|c cs IH]; intros k a a' p js scs T HP HN H; [exists k; reflexivity|].
  cbn [calls] in H. apply bind_ok in H. destruct H as (a1 & E1 & H). apply check_ok_inv in E1. destruct E1 as [-> E1]. apply Forall_cons_iff in HP, HN. destruct HP as [P1 P2], HN as [N1 N2].
  destruct (twin_step _ k a p js (Some scs) c T N1) as (S1 & S2). rewrite E1 in S1. specialize (S2 S1 (plain_mesh _ _ P1)).
  assert (exists scs', twin (fst (cstep k c)) (fst (scall_step a c)) p js (Some scs')) as (scs' & T') by (destruct c; eexists; exact S2).
  destruct (IH _ _ _ _ _ _ T' P2 N2 H) as (k' & E). exists k'. cbn [ccalls]. rewrite ccheck_of by assumption. exact E.
Qed.

(** the whole history of a condensed problem is that of a full problem with the bounds that were added *)
Lemma chistory_twin : forall roots P (M : smodel P) cfg fixed p x0 cs k, chistory roots M cfg fixed p x0 cs = Ok k -> Forall plain cs ->
  Forall no_params cs /\ exists a o0 pr alg js, history roots M (config_after M cfg) fixed p cs = Ok a /\ twin k a p js (Some (scales_asked (cf_scales cfg) cs)) /\
    make_ocp roots (cf_tname cfg) (cf_tns cfg) (cf_n cfg) (m_states M) (m_inputs M) (m_outputs M) (cf_con cfg) (m_residuals M) (cf_points cfg) fixed = Ok o0 /\
    (exists a0, a_o a0 = o0 /\ a_con a0 = cf_con cfg /\ a_p a0 = p /\ flat_mesh (oc_mesh o0) = Ok (a_amesh a0) /\ raw_problem M a0 = Ok pr) /\
    lookup_err "model_algebra" (p_cons pr) = Ok alg /\
    condensed_jacobianstructure o0 alg (num_implicit_res (names_of M (cf_con cfg))) x0 = Ok js.
Proof.
  intros roots P M cfg fixed p x0 cs k H HP. unfold chistory in H. apply bind_ok in H. destruct H as (k3 & H & HC). unfold cconstruct in H.
  apply bind_ok in H. destruct H as (o0 & Eo & H). apply bind_ok in H. destruct H as (fm & Ef & H). apply bind_ok in H. destruct H as (cyc & Ec & H).
  set (a0 := {| a_o := o0; a_con := cf_con cfg; a_pen := cf_pen cfg; a_amesh := fm; a_p := p; a_cyc := cyc; a_bd := init_bounds (oc_op o0); a_sc := init_scales o0 |}) in H.
  apply bind_ok in H. destruct H as (pr & Er & H). apply bind_ok in H. destruct H as (alg & El & H). apply bind_ok in H. destruct H as (js & Ej & H).
  set (k0 := {| k_a := a0; k_p := p; k_js := js |}) in H. apply bind_ok in H. destruct H as (pc & Epc & H). apply bind_ok in H. destruct H as (k1 & E1 & H). apply bind_ok in H. destruct H as (k2 & E2 & E3).
  assert (twin k0 a0 p js None) as T0 by (constructor; cbn; auto).
  apply ccheck_inv in E1, E2, E3. destruct E1 as [-> E1].
  destruct (twin_step _ k0 a0 p js None (SBounds (cf_bounds (config_after M cfg))) T0 I) as (S1 & T1). specialize (T1 E1 I). rewrite E1 in S1.
  destruct E2 as [-> E2]. destruct (twin_step _ _ _ _ _ _ (SBCs (cf_bcs cfg)) T1 I) as (S2 & T2). specialize (T2 E2 I). rewrite E2 in S2.
  destruct E3 as [-> E3]. destruct (twin_step _ _ _ _ _ _ (SScales (cf_scales cfg)) T2 I) as (S3 & T3). specialize (T3 E3 I). rewrite E3 in S3.
  cbv beta iota in T3. destruct (twin_calls _ cs _ _ _ _ _ _ T3 HP HC) as (NP & a & EA & TA). split; [exact NP|]. exists a, o0, pr, alg, js.
  split; [|split; [exact TA|split; [exact Eo|split; [exists a0; auto|split; assumption]]]].
  unfold history, construct. cbn [config_after cf_tname cf_tns cf_n cf_con cf_points cf_cyclic cf_noncyclic cf_bcs cf_scales cf_pen]. rewrite Eo. cbn [bind]. rewrite Ef. cbn [bind]. rewrite Ec. cbn [bind]. fold a0. rewrite Er. cbn [bind].
  rewrite (check_of _ (scall_step a0 _)) by (symmetry; exact S1). cbn [bind]. rewrite (check_of _ (scall_step _ (SBCs (cf_bcs cfg)))) by (symmetry; exact S2). cbn [bind]. rewrite (check_of _ (scall_step _ (SScales (cf_scales cfg)))) by (symmetry; exact S3). cbn [bind]. exact EA.
Qed.
