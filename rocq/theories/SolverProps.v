(** C50: the ModelSolver. *)
From Verif Require Import Base RBase TreeModel UtilsModel UtilsProofs IoModel IoProofs AlgModel AlgSpec NlpModel NlpSpec NlpProofs NlpProofs2 NlpProps NlpProps2 NlpProps3 AlgProofs AlgProps SolverModel SolverSpec SolverProofs.
From Coq Require Import Lia Lra.

Section V.
Variable nm : string -> list string.
Hypothesis HN : names_ok nm.
Lemma value_iff : forall (x : list R) g n v, value_of nm x g n v <-> In g flat_groups /\ exists i, nth_error (nm g) i = Some n /\ nth_error x (i + off nm g) = Some v.
Proof using HN.
  intros x g n v. split.
  - intros (j & E & Hv). assert (In g flat_groups) as Hg.
    { unfold get_var_index_in_flat in E. destruct (get_var_index (nm g) n); [|discriminate]. cbn [bind] in E. unfold flat_groups in *. cbn [offset_of] in E. cbn. destruct (String.eqb_spec g "states"); [auto|]. destruct (String.eqb_spec g "inputs"); [auto|]. destruct (String.eqb_spec g "states_dot"); [auto 6|]. destruct (String.eqb_spec g "con_outputs"); [auto 7|discriminate]. }
    split; [assumption|]. unfold get_var_index_in_flat, get_var_index in E. destruct (index_of n (nm g)) as [i|] eqn:Ei; [|discriminate]. rewrite off_ok in E by assumption. cbn [bind fmap] in E. injection E as <-. exists i. split; [|exact Hv]. apply index_of_lt in Ei. apply Ei.
  - intros [Hg (i & Hn & Hv)]. exists (i + off nm g)%nat. split; [|exact Hv]. now apply var_index.
Qed.
Lemma byname_value : forall (f : string -> string -> R) g n v, value_of nm (byname nm f) g n v <-> is_variable nm g n /\ v = f g n.
Proof using HN.
  intros f g n v. rewrite value_iff. split.
  - intros [Hg (i & Hn & Hv)]. rewrite (byname_nth nm HN _ f g n i Hg Hn) in Hv. injection Hv as <-. split; [split; [assumption|eapply nth_error_In; eassumption]|reflexivity].
  - intros [[Hg Hn] ->]. split; [assumption|]. apply In_nth_error in Hn. destruct Hn as [i Hn]. exists i. split; [assumption|]. now apply byname_nth.
Qed.
Lemma nth_vmul : forall a b i x y, nth_error a i = Some x -> nth_error b i = Some y -> nth_error (vmul a b) i = Some (x * y).
Proof using. intros a. unfold vmul. induction a as [|u a IH]; intros [|w b] [|i] x y H1 H2; cbn in *; try discriminate; [congruence|]. now apply IH. Qed.
Lemma unscaled_iff : forall sc y x, List.length y = num_implicit_var nm -> (unscaled nm sc y x <-> x = vmul y (byname nm sc)).
Proof using HN.
  intros sc y x L. assert (forall g n v, value_of nm y g n v -> value_of nm (vmul y (byname nm sc)) g n (v * sc g n)) as A.
  { intros g n v H. apply value_iff in H. destruct H as [Hg (i & Hn & Hv)]. apply value_iff. split; [assumption|]. exists i. split; [assumption|]. apply nth_vmul; [assumption|]. now apply byname_nth. }
  assert (List.length (vmul y (byname nm sc)) = List.length y) as Lv by (apply vmul_length; now rewrite byname_len).
  split.
  - intros [Lx H]. apply nth_error_ext. intro j. destruct (Nat.lt_ge_cases j (num_implicit_var nm)) as [Hj|Hj].
    + destruct (position nm HN j Hj) as (g & n & i & Hg & Hn & ->). destruct (nth_error y (i + off nm g)) as [v|] eqn:Ev; [|apply nth_error_None in Ev; lia].
      assert (value_of nm y g n v) as V by (apply value_iff; split; [assumption|]; eauto). pose proof (H _ _ _ V) as H1. pose proof (A _ _ _ V) as H2. apply value_iff in H1. apply value_iff in H2. destruct H1 as [_ (i1 & N1 & V1)]. destruct H2 as [_ (i2 & N2 & V2)].
      assert (NoDup (nm g)) as ND by (destruct HN as (_ & ND & _); apply ND; now right). rewrite NoDup_nth_error in ND. assert (i1 = i) as -> by (apply ND; [apply nth_error_Some; congruence|congruence]). assert (i2 = i) as -> by (apply ND; [apply nth_error_Some; congruence|congruence]). congruence.
    + rewrite !(proj2 (nth_error_None _ _)); [reflexivity|lia|lia].
  - intros ->. split; assumption.
Qed.
Lemma within_iff : forall (bd : string -> string -> ebound * ebound) x, List.length x = num_implicit_var nm -> (within (byname nm (fun g n => fst (bd g n))) (byname nm (fun g n => snd (bd g n))) x <-> bounds_hold nm bd x).
Proof using HN.
  intros bd x L.
  assert (forall A (P : A -> R -> Prop) (l : list A) (y : list R), List.length l = List.length y -> ((forall i a v, nth_error l i = Some a -> nth_error y i = Some v -> P a v) <-> Forall2 P l y)) as F.
  { intros A P. induction l as [|a l IH]; intros [|v y] Ly; try discriminate; [split; [constructor|intros _ [|i] ? ? H; discriminate]|]. injection Ly as Ly. split.
    - intro H. constructor; [apply (H 0%nat); reflexivity|]. apply IH; [exact Ly|]. intros i b w Hb Hw. now apply (H (Datatypes.S i)).
    - intro H. inversion H; subst. intros [|i] b w Hb Hw; cbn in *; [congruence|]. eapply IH; eassumption. }
  unfold within, bounds_hold. rewrite <- !F by (now rewrite byname_len). split.
  - intros [H1 H2] g n v V. apply value_iff in V. destruct V as [Hg (i & Hn & Hv)]. split; [eapply H1|eapply H2]; try eassumption; [now apply (byname_nth nm HN _ (fun g n => fst (bd g n)))|now apply (byname_nth nm HN _ (fun g n => snd (bd g n)))].
  - intros H. split; intros j b v Hb Hv; (assert (j < num_implicit_var nm)%nat as Hj by (rewrite <- L; apply nth_error_Some; congruence)); destruct (position nm HN j Hj) as (g & n & i & Hg & Hn & ->);
      (assert (value_of nm x g n v) as V by (apply value_iff; split; [assumption|]; eauto)); destruct (H _ _ _ V) as [H1 H2].
    + rewrite (byname_nth nm HN _ (fun g n => fst (bd g n)) g n i Hg Hn) in Hb. injection Hb as <-. exact H1.
    + rewrite (byname_nth nm HN _ (fun g n => snd (bd g n)) g n i Hg Hn) in Hb. injection Hb as <-. exact H2.
Qed.
Lemma idx_value : forall x g n, List.length x = num_implicit_var nm -> is_variable nm g n -> value_of nm x g n (vget (idx_of nm g n) x).
Proof using HN.
  intros x g n L [Hg Hn]. apply In_nth_error in Hn. destruct Hn as [i Hn]. apply value_iff. split; [assumption|]. exists i. split; [assumption|]. unfold idx_of. rewrite (enum_idx nm HN g n i Hg Hn). unfold vget. apply nth_error_nth'. rewrite L. eapply nth_in_range; eassumption.
Qed.
Lemma value_unique : forall x g n v w, value_of nm x g n v -> value_of nm x g n w -> v = w.
Proof using. intros x g n v w (j & E & H) (j' & E' & H'). congruence. Qed.
End V.

Lemma built : forall nm0 con forward jac hess js hs, let nm := chosen_names nm0 con in usable nm forward jac hess js hs ->
  make_solver forward jac hess js hs "casadi" nm0 con = (nm, Ok (state_of nm forward jac hess js hs fresh_scales fresh_bounds [])).
Proof.
  intros nm0 con forward jac hess js hs nm (HN & HF & HC). unfold make_solver. cbn [String.eqb Ascii.eqb Bool.eqb negb]. change (set_con_outputs nm0 (match con with None => [] | Some l => l end)) with nm. clearbody nm. f_equal.
  assert (nodupb (input_names nm) = true) as -> by (apply nodupb_spec; now apply enum_nodup). cbn [negb].
  assert (List.length (ones (num_implicit_var nm)) = num_implicit_var nm) as L1 by apply repeat_length.
  destruct (C34_residual nm forward 0 _ HN HF L1) as (? & ? & ? & ? & res & _ & _ & _ & E & _). rewrite E. cbn [bind].
  assert (con_wf (c_base nm forward jac hess js hs)) as W by (now apply c_base_wf).
  assert (make_con (num_implicit_var nm) (num_implicit_res nm) (algebra_values forward nm) jac hess (Some js) (Some hs) = Ok (rescaled (c_base nm forward jac hess js hs) (ones (num_implicit_var nm)) (ones (num_implicit_res nm)))) as ->.
  { unfold make_con. rewrite update_jac_ok; [|eapply con_wf_same; [exact W|reflexivity..]|apply repeat_length|apply repeat_length]. cbn [bind]. rewrite update_hess_ok; [reflexivity|eapply con_wf_same; [exact W|reflexivity..]|apply repeat_length]. }
  cbn [bind]. unfold add_constraints. cbn [make_prob p_cons p_n dmem dget]. unfold dmem. cbn [dget]. cbn [rescaled c_nin c_base]. rewrite Nat.eqb_refl. cbn [negb].
  match goal with |- context [set_input_scales ?c] => change c with (rescaled (c_base nm forward jac hess js hs) (ones (num_implicit_var nm)) (ones (num_implicit_res nm))) end.
  rewrite set_in_ok; [|exact W|apply repeat_length|apply repeat_length]. cbn [bind dset]. unfold set_cons, num_con. cbn [make_prob p_cons p_n p_objs p_triu p_scales values map snd list_sum fold_right rescaled c_ncon c_base]. rewrite Nat.add_0_r.
  pose proof (construct_ok nm HN forward jac hess js hs HF HC) as CO. unfold sc0, bd0 in CO. exact CO.
Qed.

(** Construction: only casadi; two variables of the same name are refused; otherwise the solver knows every variable under its group and name, in the order of the
    flat vector of the model, unbounded. *)
Theorem C50_construct : forall backend nm0 con forward jac hess js hs, let nm := chosen_names nm0 con in
  (backend <> "casadi" -> make_solver forward jac hess js hs backend nm0 con = (nm0, Raise AssertionError)) /\
  (~ NoDup (flat_map (fun g => map (fun n => (g, n)) (nm g)) flat_groups) -> make_solver forward jac hess js hs "casadi" nm0 con = (nm, Raise TypeError)) /\
  (usable nm forward jac hess js hs -> exists s, make_solver forward jac hess js hs "casadi" nm0 con = (nm, Ok s) /\
    forall g n, no_char dot g = true -> (is_variable nm g n -> get_bounds s g n = Ok (NegInf, PosInf) /\ exists i, get_var_idx s g n = Ok i /\ get_var_index_in_flat nm g n = Ok i) /\
      (~ is_variable nm g n -> get_var_idx s g n = Raise KeyError /\ get_bounds s g n = Raise KeyError)).
Proof.
  intros backend nm0 con forward jac hess js hs nm. split; [|split].
  - intro H. unfold make_solver. destruct (String.eqb_spec backend "casadi"); [contradiction|reflexivity].
  - intro H. unfold make_solver. cbn [String.eqb Ascii.eqb Bool.eqb negb]. change (set_con_outputs nm0 (match con with None => [] | Some l => l end)) with nm. clearbody nm. f_equal. destruct (nodupb (input_names nm)) eqn:N; [|reflexivity]. exfalso. apply H. apply nodupb_spec in N. unfold input_names in N.
    assert (flat_map (fun g => map (svname g) (nm g)) flat_groups = map (fun p => svname (fst p) (snd p)) (flat_map (fun g => map (fun n => (g, n)) (nm g)) flat_groups)) as E.
    { clear. induction flat_groups as [|g l IH]; [reflexivity|]. cbn [flat_map]. rewrite map_app, map_map, IH. reflexivity. }
    rewrite E in N. eapply NoDup_map_inv. exact N.
  - intro U. exists (state_of nm forward jac hess js hs fresh_scales fresh_bounds []). split; [now apply built|]. destruct U as (HN & HF & HC). intros g n P. split.
    + intro V. destruct (get_idx nm HN forward jac hess js hs fresh_scales fresh_bounds [] g n V) as (i & Hi & E). unfold get_bounds. rewrite E. cbn [bind state_of s_lb s_ub].
      rewrite (byname_nth nm HN _ (fun g n => fst (fresh_bounds g n)) g n i) by (try exact Hi; apply V). rewrite (byname_nth nm HN _ (fun g n => snd (fresh_bounds g n)) g n i) by (try exact Hi; apply V). split; [reflexivity|]. eexists. split; [reflexivity|]. apply var_index; [assumption|apply V|assumption].
    + intro V. unfold get_bounds. rewrite (get_idx_none nm forward jac hess js hs fresh_scales fresh_bounds [] g n P V). now split.
Qed.
Print Assumptions C50_construct.

(** After any calls, the bounds of a variable are the last accepted ones, whatever was called in between; get_var finds variables by name. *)
Theorem C50_bounds : forall nm0 con forward jac hess js hs show s0 ops bd, let nm := chosen_names nm0 con in
  usable nm forward jac hess js hs -> make_solver forward jac hess js hs "casadi" nm0 con = (nm, Ok s0) -> Forall plain_call ops -> steps (bound_step nm) fresh_bounds ops bd ->
  let s := mrun show s0 ops in
  (forall g n, is_variable nm g n -> get_bounds s g n = Ok (bd g n)) /\
  (forall g n b, no_char dot g = true -> (bound_ok nm g n b -> exists s', set_bounds s g n b = Ok s') /\ (~ is_variable nm g n -> set_bounds s g n b = Raise KeyError) /\
    (is_variable nm g n -> ~ bound_ok nm g n b -> set_bounds s g n b = Raise AssertionError)) /\
  (forall x g n v, List.length x = num_implicit_var nm -> no_char dot g = true -> (get_var s x g n = Ok v <-> value_of nm x g n v)).
Proof.
  intros nm0 con forward jac hess js hs show s0 ops bd nm U E F Sb s. pose proof U as (HN & HF & HC). pose proof (built nm0 con forward jac hess js hs U) as B. fold nm in B. rewrite E in B. injection B as Es0.
  destruct (mrun_ok nm HN forward jac hess js hs HF HC show ops fresh_scales fresh_bounds []) as (sc & bd' & os & S1 & S2 & S3 & O & R); [split; constructor|exact F|].
  assert (bd' = bd) as -> by (eapply steps_fun; [apply bound_step_fun|eassumption|eassumption]). unfold s. rewrite Es0, R. clear s R E Es0. clearbody nm. split; [|split].
  - intros g n V. destruct (get_idx nm HN forward jac hess js hs sc bd os g n V) as (i & Hi & E). unfold get_bounds. rewrite E. cbn [bind state_of s_lb s_ub].
    rewrite (byname_nth nm HN _ (fun g n => fst (bd g n)) g n i) by (try exact Hi; apply V). rewrite (byname_nth nm HN _ (fun g n => snd (bd g n)) g n i) by (try exact Hi; apply V). now rewrite <- surjective_pairing.
  - intros g n b P. split; [|split].
    + intros Bo. eexists. apply bounds_step; [assumption|apply Bo|assumption].
    + intro V. unfold set_bounds. now rewrite get_idx_none.
    + intros V Bo. rewrite bounds_refused by assumption. destruct V as [V1 V2]. destruct (in_dec string_dec g flat_groups); [|contradiction]. destruct (in_dec string_dec n (nm g)); [reflexivity|contradiction].
  - intros x g n v L P. rewrite value_iff by exact HN. unfold get_var. destruct (variable_dec nm g n) as [V|V].
    + destruct (get_idx nm HN forward jac hess js hs sc bd os g n V) as (i & Hi & E). rewrite E. cbn [bind]. assert (NoDup (nm g)) as ND by (destruct HN as (_ & ND & _); apply ND; right; apply V). rewrite NoDup_nth_error in ND. split.
      * intro H. destruct (nth_error x (i + off nm g)) eqn:Ex; [|discriminate]. injection H as ->. split; [apply V|]. eauto.
      * intros [_ (i' & Hi' & Hv)]. assert (i' = i) as -> by (apply ND; [apply nth_error_Some; congruence|congruence]). now rewrite Hv.
    + rewrite get_idx_none by assumption. split; [discriminate|]. intros [Hg (i & Hi & _)]. exfalso. apply V. split; [assumption|eapply nth_error_In; eassumption].
Qed.
Print Assumptions C50_bounds.

(** After any calls: scales are refused unless positive and for a known state, input or constrained output; the problem handed to the optimizer, in terms of the
    unscaled variables, has as constraints the model's equations divided by the scale of the state or output they define. *)
Theorem C50_scales : forall nm0 con forward jac hess js hs show s0 ops sc, let nm := chosen_names nm0 con in
  usable nm forward jac hess js hs -> make_solver forward jac hess js hs "casadi" nm0 con = (nm, Ok s0) -> Forall plain_call ops -> steps (scale_step nm) fresh_scales ops sc ->
  let s := mrun show s0 ops in
  (forall g n v, (scale_ok nm g n v -> exists s', set_var_scale s g n v = Ok s') /\ (v <= 0 -> set_var_scale s g n v = Raise AssertionError) /\
    (0 < v -> ~ (In g ["states"; "inputs"; "con_outputs"] /\ In n (nm g)) -> set_var_scale s g n v = Raise KeyError)) /\
  (forall g n, 0 < sc g n) /\ (forall n, sc "states_dot" n = 1) /\
  (forall y, List.length y = num_implicit_var nm -> exists x c ds di sd out, unscaled nm sc y x /\ prob_constraints (s_prob s) y = Ok c /\ List.length c = num_implicit_res nm /\
    group_dict nm x "states" ds /\ group_dict nm x "inputs" di /\ forward ds di 0 = Ok (sd, out) /\
    (forall i n, nth_error (nm "states") i = Some n -> exists f v, dget n sd = Some f /\ value_of nm x "states_dot" n v /\ nth_error c i = Some ((f - v) / sc "states" n)) /\
    (forall i n, nth_error (nm "con_outputs") i = Some n -> exists f v, dget n out = Some f /\ value_of nm x "con_outputs" n v /\ nth_error c (List.length (nm "states") + i) = Some ((f - v) / sc "con_outputs" n)) /\
    (forall i n, nth_error (nm "residuals") i = Some n -> exists f, dget n out = Some f /\ nth_error c (List.length (nm "states") + List.length (nm "con_outputs") + i) = Some f)).
Proof.
  intros nm0 con forward jac hess js hs show s0 ops sc nm U E F Ss s. pose proof U as (HN & HF & HC). pose proof (built nm0 con forward jac hess js hs U) as B. fold nm in B. rewrite E in B. injection B as Es0.
  destruct (mrun_ok nm HN forward jac hess js hs HF HC show ops fresh_scales fresh_bounds []) as (sc' & bd & os & S1 & S2 & S3 & O & R); [split; constructor|exact F|].
  assert (sc' = sc) as -> by (eapply steps_fun; [apply scale_step_fun|eassumption|eassumption]). unfold s. rewrite Es0, R. clear s R E Es0. clearbody nm.
  assert ((forall g n, 0 < sc g n) /\ (forall n, sc "states_dot" n = 1)) as [Ps Pd].
  { assert ((forall g n, 0 < fresh_scales g n) /\ (forall n, fresh_scales "states_dot" n = 1)) as Q by (unfold fresh_scales; split; intros; lra). clear - Q Ss. induction Ss as [a|a op b ops c H _ IH]; [exact Q|]. apply IH. clear IH. destruct H as [g n v Ok0| |]; try exact Q. destruct Ok0 as (Pv & Hg & Hn). destruct Q as [Q1 Q2]. split; intros; unfold override.
    - destruct (_ && _)%bool; [assumption|apply Q1].
    - destruct (String.eqb_spec "states_dot" g) as [<-|]; [|apply Q2]. cbn in Hg. exfalso. intuition discriminate. }
  split; [|split; [exact Ps|split; [exact Pd|]]].
  - intros g n v. split; [|split].
    + intro H. eexists. apply scale_step_ok; try assumption. apply O.
    + intro H. rewrite scale_step_refused by (intros (H1 & _); lra). destruct (Rlt_dec 0 v); [lra|reflexivity].
    + intros Hv H. rewrite scale_step_refused by (intros (_ & H1 & H2); tauto). destruct (Rlt_dec 0 v); [reflexivity|contradiction].
  - intros y Ly. exists (vmul y (byname nm sc)). assert (List.length (vmul y (byname nm sc)) = num_implicit_var nm) as Lx by (rewrite vmul_length by (now rewrite byname_len); exact Ly).
    destruct (C34_residual nm forward 0 _ HN HF Lx) as (ds & di & sd & out & res & G1 & G2 & Fw & Er & Lr & P1 & P2 & P3).
    exists (vdiv res (cs_of nm sc)), ds, di, sd, out. split; [now apply unscaled_iff|].
    assert (List.length (cs_of nm sc) = num_implicit_res nm) as Lc by (now apply cs_len). split.
    { unfold prob_constraints. cbn [state_of s_prob prob_of p_cons values map snd hstackl concat app]. unfold con_constraints. cbn [rescaled c_f c_in c_con c_base]. unfold algebra_values. rewrite Er. cbn. now rewrite app_nil_r. }
    split; [rewrite vdiv_length by congruence; congruence|]. split; [exact G1|]. split; [exact G2|]. split; [exact Fw|].
    assert (forall i f d, nth_error res i = Some f -> nth_error (cs_of nm sc) i = Some d -> nth_error (vdiv res (cs_of nm sc)) i = Some (f / d)) as ND.
    { generalize res as a, (cs_of nm sc) as b. clear. unfold vdiv. induction a as [|u a IH]; intros [|w b] [|i] x y H1 H2; cbn in *; try discriminate; [congruence|]. now apply IH. }
    assert (List.length (nm "states_dot") = List.length (nm "states")) as Ld by (now apply len_sd).
    split; [|split]; intros i n Hn.
    + destruct (P1 i n Hn) as (f & v & A1 & A2 & A3). exists f, v. split; [assumption|]. split; [assumption|]. apply ND; [assumption|]. unfold cs_of. rewrite nth_error_app1 by (rewrite map_length; apply nth_error_Some; congruence). now apply map_nth_error.
    + destruct (P2 i n Hn) as (f & v & A1 & A2 & A3). exists f, v. split; [assumption|]. split; [assumption|]. apply ND; [assumption|]. assert (i < List.length (nm "con_outputs"))%nat by (apply nth_error_Some; congruence). unfold cs_of. rewrite nth_error_app2 by (rewrite map_length; lia). rewrite map_length, Nat.add_comm, Nat.add_sub. rewrite nth_error_app1 by (rewrite map_length; lia). now apply map_nth_error.
    + destruct (P3 i n Hn) as (f & A1 & A3). exists f. split; [assumption|]. replace (Some f) with (Some (f / 1)) by (f_equal; field). apply ND; [assumption|]. assert (i < List.length (nm "residuals"))%nat by (apply nth_error_Some; congruence). unfold cs_of. rewrite nth_error_app2 by (rewrite map_length; lia). rewrite nth_error_app2 by (rewrite !map_length; lia). rewrite !map_length. replace (List.length (nm "states") + List.length (nm "con_outputs") + i - List.length (nm "states") - List.length (nm "con_outputs"))%nat with i by lia. unfold ones. now apply nth_error_repeat.
Qed.
Print Assumptions C50_scales.

Section C.
Variables (nm : string -> list string) (forward : dict R -> dict R -> R -> result (dict R * dict R)) (jac : list R -> list R) (hess : list R -> list R -> list R) (js hs : list nat * list nat).
Hypothesis U : usable nm forward jac hess js hs.
Lemma cost_user : forall sc os x, List.length x = num_implicit_var nm -> objs_ok nm os -> cost_is nm os x (user_objective (prob_of nm forward jac hess js hs sc os) x).
Proof using U.
  intros sc os x L [_ F]. unfold user_objective. cbn [prob_of p_objs]. clear - F L U. destruct U as (HN & _ & _). induction os as [|[k [[g n] w]] os IH]; [constructor|]. inversion F as [|? ? F1 F2]; subst. cbn [objs_of map values snd fst] in *. cbn [rsum]. unfold orescaled at 1. cbn [o_f o_base]. constructor; [now apply idx_value|now apply IH].
Qed.
Lemma cost_unique : forall os x c c', cost_is nm os x c -> cost_is nm os x c' -> c = c'.
Proof using. intros os x c c' H. revert c'. induction H as [|name g n w os x v c V H IH]; intros c' H'; inversion H'; subst; [reflexivity|]. f_equal; [f_equal; eapply value_unique; eassumption|now apply IH]. Qed.
Lemma algebra_zero : forall x, List.length x = num_implicit_var nm -> (Forall (fun v => v = 0) (algebra_values forward nm x) <-> equations_hold nm forward x).
Proof using U.
  intros x L. destruct U as (HN & HF & _). destruct (C34_residual_zero nm forward 0 x HN HF L) as (ds & di & sd & out & res & G1 & G2 & Fw & Er & Z). unfold algebra_values. rewrite Er, Z. unfold equations_hold. split.
  - intros (A & B & C). exists ds, di, sd, out. repeat (split; [assumption|]). assumption.
  - intros (ds' & di' & sd' & out' & G1' & G2' & Fw' & A & B & C).
    assert (forall g d d', In g flat_groups -> group_dict nm x g d -> group_dict nm x g d' -> d = d') as Q.
    { intros g d d' Hg [K1 P1] [K2 P2]. assert (NoDup (nm g)) as ND by (destruct HN as (_ & ND & _); apply ND; now right). assert (forall n, In n (nm g) -> dget n d = dget n d') as D.
      { intros n Hn. assert (In n (keys d)) as H1 by congruence. apply dget_some_iff in H1. destruct H1 as [v Hv]. rewrite Hv. symmetry. apply P2. now apply P1. }
      clear - K1 K2 ND D. rewrite <- K1 in K2, ND, D. clear K1. revert d' K2 D. induction d as [|[k v] d IH]; intros [|[k' v'] d'] K D; try discriminate; [reflexivity|]. cbn in K. injection K as Ek K. subst k'. cbn in ND. inversion ND as [|? ? N1 N2]; subst. f_equal.
      - specialize (D k (or_introl eq_refl)). cbn in D. rewrite String.eqb_refl in D. congruence.
      - apply IH; [assumption|assumption|]. intros n Hn. specialize (D n (or_intror Hn)). cbn in D. assert (String.eqb n k = false) as Q0 by (apply String.eqb_neq; intro E0; apply N1; unfold keys in Hn; congruence). now rewrite Q0 in D. }
    rewrite (Q "states" ds' ds) in Fw' by (try assumption; cbn; tauto). rewrite (Q "inputs" di' di) in Fw' by (try assumption; cbn; tauto). rewrite Fw in Fw'. injection Fw' as <- <-. tauto.
Qed.
Lemma feasible_iff : forall sc bd os x, user_feasible (prob_of nm forward jac hess js hs sc os) (byname nm (fun g n => fst (bd g n))) (byname nm (fun g n => snd (bd g n))) x <-> wanted nm forward bd x.
Proof using U.
  intros sc bd os x. unfold user_feasible, wanted. cbn [prob_of p_n]. unfold user_constraints. cbn [prob_of p_cons values map snd concat rescaled c_f c_base]. rewrite app_nil_r. destruct U as (HN & _ & _). split; intros (L & W & Z); (split; [exact L|]); (split; [apply (within_iff nm HN); assumption|apply algebra_zero; assumption]).
Qed.
End C.

(** After any calls: the objective is the sum of weight times variable over the objectives that were added and not deleted, and the gradient reported to the
    optimizer is its exact gradient; an objective of the same name is refused, as is one for a variable that does not exist. *)
Theorem C50_objective : forall nm0 con forward jac hess js hs show s0 ops sc os, let nm := chosen_names nm0 con in
  usable nm forward jac hess js hs -> make_solver forward jac hess js hs "casadi" nm0 con = (nm, Ok s0) -> Forall plain_call ops -> steps (scale_step nm) fresh_scales ops sc -> steps (obj_step nm show) [] ops os ->
  let s := mrun show s0 ops in keys (p_objs (s_prob s)) = keys os /\
  (forall g n w, no_char dot g = true -> (is_variable nm g n -> ~ In (objective_name show g n w) (keys os) -> exists s', add_obj_from_var show s g n w = Ok (s', objective_name show g n w)) /\
    (is_variable nm g n -> In (objective_name show g n w) (keys os) -> add_obj_from_var show s g n w = Raise NameError) /\ (~ is_variable nm g n -> add_obj_from_var show s g n w = Raise KeyError)) /\
  (os <> [] -> exists F G, is_gradient (num_implicit_var nm) F (fun y j => vget j (G y)) /\
    forall y, List.length y = num_implicit_var nm -> prob_objective (s_prob s) y = Ok (F y) /\ prob_gradient (s_prob s) y = Ok (G y) /\ List.length (G y) = num_implicit_var nm /\ forall x, unscaled nm sc y x -> cost_is nm os x (F y)).
Proof.
  intros nm0 con forward jac hess js hs show s0 ops sc os nm U E F Ss So s. pose proof U as (HN & HF & HC). pose proof (built nm0 con forward jac hess js hs U) as B. fold nm in B. rewrite E in B. injection B as Es0.
  destruct (mrun_ok nm HN forward jac hess js hs HF HC show ops fresh_scales fresh_bounds []) as (sc' & bd & os' & S1 & S2 & S3 & O & R); [split; constructor|exact F|].
  assert (sc' = sc) as -> by (eapply steps_fun; [apply scale_step_fun|eassumption|eassumption]). assert (os' = os) as -> by (eapply steps_fun; [apply obj_step_fun|eassumption|eassumption]). unfold s. rewrite Es0, R. clear s R E Es0. clearbody nm.
  split; [apply keys_objs|]. split.
  - intros g n w P. split; [|split].
    + intros V I. rewrite obj_step_ok by assumption. destruct (in_dec string_dec (objective_name show g n w) (keys os)); [contradiction|]. eexists. reflexivity.
    + intros V I. rewrite obj_step_ok by assumption. destruct (in_dec string_dec (objective_name show g n w) (keys os)); [reflexivity|contradiction].
    + intro V. unfold add_obj_from_var. now rewrite get_idx_none.
  - intro Ne. cbn [state_of s_prob]. set (p := prob_of nm forward jac hess js hs sc os). assert (prob_inv p) as I by (apply prob_of_inv; try assumption; apply O). assert (reachable (num_implicit_var nm) p) as Re by (apply (prob_reachable p I eq_refl)).
    assert (p_objs p <> []) as Np by (cbn; unfold objs_of; destruct os; [contradiction|discriminate]).
    destruct (C16_gradient _ p Re Np) as (F0 & G & H & GR).
    { intros o Ho. cbn in Ho. unfold values, objs_of in Ho. rewrite map_map in Ho. apply in_map_iff in Ho. destruct Ho as ([k [[g n] w]] & <- & Hin). cbn [snd fst orescaled o_f o_g o_base]. intros x j Lx Hj. eapply pderiv_eq; [|apply pderiv_scal, pderiv_coord; lia].
      destruct O as [_ O]. rewrite Forall_forall in O. specialize (O _ Hin). cbn [fst snd] in O. destruct O as [Vg Vn]. apply In_nth_error in Vn. destruct Vn as [i Vn]. assert (idx_of nm g n < num_implicit_var nm)%nat as Hi by (unfold idx_of; rewrite (enum_idx nm HN g n i Vg Vn); eapply nth_in_range; eassumption).
      unfold zeros. destruct (Nat.eqb_spec (idx_of nm g n) j) as [<-|Nj].
      - rewrite vget_upd_same by (now rewrite repeat_length). ring.
      - rewrite vget_upd_other by congruence. unfold vget. rewrite nth_repeat. ring. }
    exists F0, G. split; [exact GR|]. intros y Ly. destruct (H y Ly) as (H1 & H2 & H3 & H4). split; [assumption|]. split; [assumption|]. split; [assumption|]. intros x Ux. rewrite H4. apply (unscaled_iff nm HN) in Ux; [|assumption]. subst x.
    apply (cost_user nm forward jac hess js hs U sc os); [|assumption]. rewrite vmul_length by (now rewrite byname_len). exact Ly.
Qed.
Print Assumptions C50_objective.

(** Solving: for any optimizer, after any calls, the problem it is given is, variable by variable times its scale, exactly the user's problem: the bounds last set,
    the model's equations, the sum of the objectives.  The start is the guess, the answer is unscaled, and only a status of -13 makes solve raise. *)
Theorem C50_solve : forall ipopt nm0 con forward jac hess js hs show s0 ops sc bd os guess, let nm := chosen_names nm0 con in
  usable nm forward jac hess js hs -> make_solver forward jac hess js hs "casadi" nm0 con = (nm, Ok s0) -> Forall plain_call ops ->
  steps (scale_step nm) fresh_scales ops sc -> steps (bound_step nm) fresh_bounds ops bd -> steps (obj_step nm show) [] ops os -> List.length guess = num_implicit_var nm ->
  let s := mrun show s0 ops in
  exists q y0, unscaled nm sc y0 guess /\
    (forall y x, List.length y = num_implicit_var nm -> unscaled nm sc y x -> (ip_feasible (num_implicit_var nm) q y <-> wanted nm forward bd x) /\ (ip_optimum (num_implicit_var nm) q y <-> best nm forward bd os x)) /\
    (forall y st, ipopt q y0 = (y, st) -> List.length y = num_implicit_var nm ->
      (st = (-13)%Z -> ms_solve ipopt s guess = Raise RuntimeError) /\ (st <> (-13)%Z -> exists s' x, ms_solve ipopt s guess = Ok (s', (x, st)) /\ unscaled nm sc y x /\ (os <> [] -> s' = s))).
Proof.
  intros ipopt nm0 con forward jac hess js hs show s0 ops sc bd os guess nm U E F Ss Sb So Lg s. pose proof U as (HN & HF & HC). pose proof (C50_scales nm0 con forward jac hess js hs show s0 ops sc U E F Ss) as (_ & Ps & _ & _).
  pose proof (built nm0 con forward jac hess js hs U) as B. fold nm in B. rewrite E in B. injection B as Es0.
  destruct (mrun_ok nm HN forward jac hess js hs HF HC show ops fresh_scales fresh_bounds []) as (sc' & bd' & os' & S1 & S2 & S3 & O & R); [split; constructor|exact F|].
  assert (sc' = sc) as -> by (eapply steps_fun; [apply scale_step_fun|eassumption|eassumption]). assert (os' = os) as -> by (eapply steps_fun; [apply obj_step_fun|eassumption|eassumption]). assert (bd' = bd) as -> by (eapply steps_fun; [apply bound_step_fun|eassumption|eassumption]).
  unfold s. rewrite Es0, R. clear s R E Es0. clearbody nm. set (p := prob_of nm forward jac hess js hs sc os).
  assert (prob_inv p) as I by (apply prob_of_inv; try assumption; apply O). assert (reachable (num_implicit_var nm) p) as Re by (apply (prob_reachable p I eq_refl)).
  assert (Forall (fun v => 0 < v) (byname nm sc)) as Pb. { apply Forall_forall. intros v Hv. unfold byname in Hv. apply in_flat_map in Hv. destruct Hv as (g & _ & Hv). apply in_map_iff in Hv. destruct Hv as (n & <- & _). apply Ps. }
  assert (con_scales_ok p) as Cs. { intros c Hc. cbn in Hc. destruct Hc as [<-|[]]. cbn [rescaled c_con]. unfold cs_of. apply pos_nz. assert (forall g, Forall (fun v => 0 < v) (map (sc g) (nm g))) as Pg by (intro g; apply Forall_forall; intros v Hv; apply in_map_iff in Hv; destruct Hv as (n & <- & _); apply Ps). apply Forall_app. split; [apply Pg|]. apply Forall_app. split; [apply Pg|]. apply Forall_forall. intros v Hv. apply repeat_spec in Hv. subst v. lra. }
  set (lb := byname nm (fun g n => fst (bd g n))). set (ub := byname nm (fun g n => snd (bd g n))).
  destruct (C18_solve ipopt _ p lb ub guess Re ltac:(discriminate) Pb Cs ltac:(apply byname_len) ltac:(apply byname_len) Lg) as (p' & q & y0 & E1 & E2 & E3 & L0 & Eg & Op & Fe & Sol).
  assert (num_con p = num_implicit_res nm) as Nc by (unfold num_con; cbn; lia). rewrite Nc in Sol. cbn [p prob_of p_scales] in *.
  exists q, y0. split; [apply (unscaled_iff nm HN); [assumption|now rewrite <- Eg]|]. split.
  - intros y x Ly Ux. apply (unscaled_iff nm HN) in Ux; [|assumption]. subst x. assert (List.length (vmul y (byname nm sc)) = num_implicit_var nm) as Lx by (rewrite vmul_length by (now rewrite byname_len); exact Ly). split.
    + rewrite Fe by assumption. apply feasible_iff. exact U.
    + rewrite Op by assumption. unfold user_optimum, best. split.
      * intros [W M]. split; [eapply feasible_iff; eassumption|]. intros z c c' Wz Hc Hc'. assert (List.length z = num_implicit_var nm) as Lz by apply Wz.
        rewrite (cost_unique nm os _ c _ Hc (cost_user nm forward jac hess js hs U sc os _ Lx O)), (cost_unique nm os _ c' _ Hc' (cost_user nm forward jac hess js hs U sc os _ Lz O)). apply M. now apply feasible_iff.
      * intros [W M]. split; [now apply feasible_iff|]. intros z Wz. assert (List.length z = num_implicit_var nm) as Lz by apply Wz. apply (M z); [eapply feasible_iff; eassumption|apply (cost_user nm forward jac hess js hs U sc os); assumption|apply (cost_user nm forward jac hess js hs U sc os); assumption].
  - intros y st Hip Ly. destruct (Sol y st Hip) as [R1 R2]. unfold ms_solve. cbn [state_of s_prob s_lb s_ub s_ncon]. split; intro Hst.
    + fold p lb ub. rewrite R1 by exact Hst. reflexivity.
    + fold p lb ub. rewrite R2 by exact Hst. cbn [bind]. eexists. eexists. split; [reflexivity|]. split; [now apply (unscaled_iff nm HN)|]. intro No. cbn [fst]. rewrite E3; [reflexivity|]. cbn. unfold objs_of. destruct os; [contradiction|discriminate].
Qed.
Print Assumptions C50_solve.

(** a model: v' = u - v, output a = u v, residual r = u - 2 *)
Definition toy_names (g : string) : list string :=
  if String.eqb g "states" then ["v"] else if String.eqb g "states_dot" then ["v"] else if String.eqb g "inputs" then ["u"] else if String.eqb g "outputs" then ["a"; "r"; "a.b"] else if String.eqb g "residuals" then ["r"] else [].
Definition toy_forward (ds di : dict R) (mesh : R) : result (dict R * dict R) :=
  bind (lookup_err "v" ds) (fun v => bind (lookup_err "u" di) (fun u => Ok ([("v", u - v)], [("a", u * v); ("r", u - 2); ("a.b", 0)]))).
Definition toy_jac (x : list R) : list R := [-1; 1; -1; vget 1 x; vget 0 x; -1; 1].
Definition toy_hess (x lam : list R) : list R := [vget 1 lam].
Definition toy_js : list nat * list nat := ([0; 0; 0; 1; 1; 1; 2]%nat, [0; 1; 2; 0; 1; 3; 1]%nat).
Definition toy_hs : list nat * list nat := ([1]%nat, [0]%nat).
Definition toy_ops : list mop := [MScale "states" "v" 10; MBounds "states" "v" (BTuple (Fin 0) (Fin 5)); MBounds "inputs" "u" (BTuple (Fin 1) (Fin 0)); MScale "inputs" "u" (-1); MObj "states" "v" 3; MObj "con_outputs" "a" 2; MDelObj "con_outputs.a.weight=w"].
Example C50_nonvacuous : let nm := chosen_names toy_names (Some ["a"]) in let sc := override fresh_scales "states" "v" 10 in let bd := override fresh_bounds "states" "v" (Fin 0, Fin 5) in let os := [("states.v.weight=w", ("states", "v", 3))] in
  usable nm toy_forward toy_jac toy_hess toy_js toy_hs /\ (exists s, make_solver toy_forward toy_jac toy_hess toy_js toy_hs "casadi" toy_names (Some ["a"]) = (nm, Ok s)) /\ Forall plain_call toy_ops /\
  steps (scale_step nm) fresh_scales toy_ops sc /\ steps (bound_step nm) fresh_bounds toy_ops bd /\ steps (obj_step nm (fun _ => "w")) [] toy_ops os /\ wanted nm toy_forward bd [0; 2; 2; 0] /\ best nm toy_forward bd os [0; 2; 2; 0].
Proof.
  intros nm sc bd os.
  assert (usable nm toy_forward toy_jac toy_hess toy_js toy_hs) as U.
  { split; [|split].
    - split; [reflexivity|]. split; [|split].
      + intros g [<-|[<-|[<-|[<-|[<-|[]]]]]]; cbn; repeat constructor; cbn; intuition discriminate.
      + intros a [<-|[]]. cbn. auto.
      + intros a [<-|[]]. cbn. auto.
    - intros ds di K1 K2. unfold toy_forward. assert (In "v" (keys ds)) as H1 by (rewrite K1; cbn; auto). assert (In "u" (keys di)) as H2 by (rewrite K2; cbn; auto). apply dget_some_iff in H1. apply dget_some_iff in H2. destruct H1 as [v Hv]. destruct H2 as [u Hu]. unfold lookup_err. rewrite Hv, Hu. cbn [bind]. eexists. eexists. split; [reflexivity|]. split; intros a Ha; cbn in *; tauto.
    - constructor; [| | reflexivity | reflexivity]; (split; [reflexivity|]); split; repeat constructor. }
  split; [exact U|]. split; [eexists; exact (built toy_names (Some ["a"]) _ _ _ _ _ U)|]. split; [repeat constructor|].
  assert (wanted nm toy_forward bd [0; 2; 2; 0]) as W.
  { split; [reflexivity|]. split.
    - intros g n v (j & E & Hv). unfold bd, override, fresh_bounds. destruct (String.eqb_spec g "states") as [->|]; [|split; exact I]. destruct (String.eqb_spec n "v") as [->|]; [|split; exact I]. cbn in E. injection E as <-. cbn in Hv. injection Hv as <-. cbn. lra.
    - assert (Forall (fun v => v = 0) (algebra_values toy_forward nm [0; 2; 2; 0])) as Z.
      { assert (algebra_values toy_forward nm [0; 2; 2; 0] = [2 - 0 - 2; 2 * 0 - 0; 2 - 2]) as -> by reflexivity. repeat constructor; lra. }
      apply (algebra_zero nm toy_forward toy_jac toy_hess toy_js toy_hs U); [reflexivity|exact Z]. }
  split; [|split; [|split; [|split; [exact W|]]]].
  - unfold toy_ops. econstructor; [apply scale_set; unfold scale_ok; cbn; repeat split; auto; lra|]. econstructor; [now apply scale_other|]. econstructor; [now apply scale_other|]. econstructor; [apply scale_refused; intros (H & _); lra|]. econstructor; [now apply scale_other|]. econstructor; [now apply scale_other|]. econstructor; [now apply scale_other|]. constructor.
  - unfold toy_ops. econstructor; [now apply bound_other|]. econstructor. { apply bound_set. split; [split; cbn; auto|]. cbn. lra. } econstructor. { apply bound_refused. intros [_ H]. cbn in H. lra. } do 4 (econstructor; [now apply bound_other|]). constructor.
  - unfold toy_ops. do 4 (econstructor; [now apply obj_other|]). econstructor; [apply obj_add; [split; cbn; auto|intros []]|]. econstructor; [apply obj_add; [split; cbn; auto 6|cbn; intros [H|[]]; discriminate]|]. econstructor; [apply obj_del|]. constructor.
  - split; [exact W|]. intros y c c' Wy Hc Hc'. inversion Hc; subst. inversion Hc'; subst.
    repeat match goal with H : cost_is _ [] _ _ |- _ => inversion H; clear H; subst end.
    match goal with H : value_of nm [0; 2; 2; 0] "states" "v" ?v |- _ => assert (v = 0) as -> by (destruct H as (j & Ej & Hv); cbn in Ej; injection Ej as <-; cbn in Hv; congruence) end.
    match goal with H : value_of nm y "states" "v" ?v |- _ => destruct Wy as (_ & B & _); destruct (B _ _ _ H) as [B1 _]; cbn in B1 end. lra.
Qed.

(** Findings. *)
(** the hessian of a ModelSolver never works: the constraint asks for a function called "_hessian", there is only "hessian" *)
Theorem C50_hessian_refuted : forall hess s x lam obj_factor, ms_hessian hess s x lam obj_factor = Raise KeyError.
Proof. reflexivity. Qed.
Print Assumptions C50_hessian_refuted.
Lemma append_assoc : forall a b c : string, String.append a (String.append b c) = String.append (String.append a b) c.
Proof. induction a as [|ch a IH]; intros b c; cbn; [reflexivity|]. now rewrite IH. Qed.
(** "group.prefix" is accepted as a group *)
Theorem C50_group_alias_refuted : forall s g a b, get_var_idx s (String.append g (String.append "." a)) b = get_var_idx s g (String.append a (String.append "." b)).
Proof. intros s g a b. unfold get_var_idx, svname. now rewrite <- !append_assoc. Qed.
Print Assumptions C50_group_alias_refuted.
(** constructing another ModelSolver on the same model changes its constrained outputs; then set_var_scale of the first solver raises *)
Theorem C50_second_solver_refuted : exists s nm', snd (make_solver toy_forward toy_jac toy_hess toy_js toy_hs "casadi" toy_names (Some ["a"])) = Ok s /\ nm' = fst (make_solver toy_forward toy_jac toy_hess toy_js toy_hs "casadi" (s_names s) (Some ["a.b"])) /\
  (exists s', set_var_scale s "states" "v" 2 = Ok s') /\ set_var_scale (with_names s nm') "states" "v" 2 = Raise KeyError.
Proof.
  destruct C50_nonvacuous as (U & _). rewrite (built toy_names (Some ["a"]) _ _ _ _ _ U). cbn [snd]. eexists. eexists. split; [reflexivity|]. split; [reflexivity|]. split.
  - destruct U as (HN & HF & HC). eexists. apply scale_step_ok; try assumption; [constructor|]. split; [lra|]. split; cbn; auto.
  - unfold set_var_scale. destruct (Rlt_dec 0 2); [|lra]. reflexivity.
Qed.
Print Assumptions C50_second_solver_refuted.
(** an unknown output makes the constructor raise, but the model keeps it as a constrained output *)
Theorem C50_failed_construction_refuted : make_solver toy_forward toy_jac toy_hess toy_js toy_hs "casadi" toy_names (Some ["zz"]) = (chosen_names toy_names (Some ["zz"]), Raise KeyError).
Proof. reflexivity. Qed.
Print Assumptions C50_failed_construction_refuted.
