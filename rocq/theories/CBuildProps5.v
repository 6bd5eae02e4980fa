(** C56, continued: a problem that meets all hypotheses, and findings. *)
From Verif Require Import Base RBase TreeModel UtilsModel IoModel CollocModel CollocProps MeshModel OcpModel OcpSpec NlpModel NlpSpec AlgModel AlgSpec ConvModel ConvSpec CyclicSpec BoundModel BoundSpec ScaleModel ScaleSpec BuildModel BuildSpec BuildProofs BuildProofs2 BuildProps BuildProps2 BuildProps4
  CondModel CondSpec CondProofs CondProofs2 CBuildModel CBuildSpec CBuildProofs CBuildProps CBuildProps2 CBuildProps3.

Definition ex_ccalls : list (scall R) := filter (fun c => match c with SParams _ => false | _ => true end) ex_calls.

(** all hypotheses of the theorems are met by a problem with bounds, a boundary condition, a penalty on the input, cyclic variables and scales, after three calls *)
Example C56_nonvacuous : exists t k a, oracle_ok (fun _ => [-1; 1/3]) (cf_tns ex_cfg) /\ make_transcription (fun _ => [-1; 1/3]) (cf_tname ex_cfg) (cf_tns ex_cfg) = Ok t /\ config_ok ex_model ex_cfg None t /\
  Forall plain ex_ccalls /\ List.length ex_ccalls = 3%nat /\ chistory (fun _ => [-1; 1/3]) ex_model ex_cfg None 2 (repeat 1 19) ex_ccalls = Ok k /\ history (fun _ => [-1; 1/3]) ex_model ex_cfg None 2 ex_ccalls = Ok a /\
  Forall (fun c => 0 < sc_v c) (scales_asked (cf_scales ex_cfg) ex_ccalls) /\ model_ok ex_model (cf_con ex_cfg) /\
  (forall c, In c (bounds_asked (cf_bounds ex_cfg) ex_ccalls) \/ In c (bcs_asked (cf_bcs ex_cfg) ex_ccalls) -> on_dots c = false).
Proof.
  destruct C51_nonvacuous as (t & a & HO & HT & CO & CA & PL & _). exists t.
  assert (Forall (call_ok (cf_n ex_cfg * (t_stages t - 1) + 1) (m_states ex_model) (m_inputs ex_model) (cf_con ex_cfg) None) ex_ccalls) as CA'.
  { apply Forall_forall. intros c Hc. apply filter_In in Hc. rewrite Forall_forall in CA. now apply CA. }
  assert (t = trapezoidal) as -> by (cbn in HT; congruence).
  destruct (C56_accepts _ R ex_model ex_cfg None 2 (repeat 1 19) ex_ccalls trapezoidal HO eq_refl CO ltac:(reflexivity) CA') as [k EK]; [repeat constructor|].
  destruct (C51_accepts _ R ex_model ex_cfg None 2 ex_ccalls trapezoidal HO eq_refl CO CA') as [a' EA].
  exists k, a'. split; [exact HO|]. split; [reflexivity|]. split; [exact CO|]. split; [repeat constructor|]. split; [reflexivity|]. split; [exact EK|]. split; [exact EA|]. split; [repeat constructor; cbn; lra|]. split; [apply ex_model_ok|].
  intros c H. cbn in H. repeat (destruct H as [H|H]); subst; try contradiction; reflexivity.
Qed.

(** ** Findings *)
(** time' = 1 *)
Definition clock : smodel unit := {|
  m_states := ["time"]; m_inputs := []; m_outputs := []; m_residuals := [];
  m_forward := fun _ _ _ _ => Ok ([("time", 1)], []);
  m_jac := fun _ _ _ _ => [-1]; m_hess := fun _ _ _ _ _ => []; m_js := fun _ => ([0%nat], [1%nat]); m_hs := fun _ => ([], []) |}.
Definition clock_cfg : sim_config := {| cf_n := 1; cf_points := None; cf_tname := "Trapezoidal"; cf_tns := None; cf_cyclic := false; cf_noncyclic := []; cf_con := []; cf_pen := None; cf_bounds := []; cf_bcs := []; cf_scales := [] |}.
Lemma clock_ok : model_ok clock [].
Proof.
  constructor.
  - split; [reflexivity|]. split; [|split; intros q Hq; cbn in *; tauto]. intros g Hg. cbn in Hg. repeat (destruct Hg as [<-|Hg]; [cbn; repeat constructor; cbn; intuition discriminate|]). contradiction.
  - intros nm [H|H]; cbn in H; repeat (destruct H as [<-|H]; [reflexivity|]); contradiction.
  - intros p mesh ds di Hs Hi. eexists. eexists. split; [reflexivity|]. split; intros q Hq; cbn in *; tauto.
  - reflexivity.
  - reflexivity.
  - cbn. repeat split; repeat constructor; lia.
  - cbn. repeat split; repeat constructor; lia.
Qed.
Lemma clock_config_ok : config_ok clock clock_cfg None trapezoidal.
Proof. constructor; cbn [clock_cfg clock cf_n cf_points cf_tname cf_tns cf_cyclic cf_noncyclic cf_con cf_pen cf_bounds cf_bcs cf_scales m_states m_inputs]; try discriminate; try (intros b []); [lia|apply clock_ok]. Qed.
Lemma clock_after_ok : config_ok clock (config_after clock clock_cfg) None trapezoidal.
Proof.
  constructor; cbn [config_after clock_cfg clock cf_n cf_points cf_tname cf_tns cf_cyclic cf_noncyclic cf_con cf_pen cf_bounds cf_bcs cf_scales m_states m_inputs]; try discriminate; [lia|apply clock_ok| |intros b []|intros b []].
  intros b [<-|[]]. split; [left; cbn; tauto|]. split; [exact (fun _ => I)|cbn; lra].
Qed.
Lemma chistory_nil : forall roots P (M : smodel P) cfg fixed p x0 k, chistory roots M cfg fixed p x0 [] = Ok k -> cconstruct roots M cfg fixed p x0 = Ok k.
Proof. intros roots P M cfg fixed p x0 k H. unfold chistory in H. destruct (cconstruct _ _ _ _ _ _); [exact H|discriminate]. Qed.
(** Building a condensed problem changes the configuration object of the caller: a full problem built from the same object before the condensed one has a
    trajectory, the one built from it afterwards has none. *)
Theorem C56_config_refuted : exists k a a' x, let cfg' := config_after clock clock_cfg in
  cconstruct (fun _ => [-1; 1/3]) clock clock_cfg None tt (repeat 1 5) = Ok k /\
  history (fun _ => [-1; 1/3]) clock clock_cfg None tt [] = Ok a /\ history (fun _ => [-1; 1/3]) clock cfg' None tt [] = Ok a' /\
  trajectory (a_o a) ["time"] [] [] [] (m_forward clock tt) trapezoidal 1 [0; 1] None None (bounds_asked (cf_bounds clock_cfg) (@nil (scall unit))) [] x /\
  forall z, ~ trajectory (a_o a') ["time"] [] [] [] (m_forward clock tt) trapezoidal 1 [0; 1] None None (bounds_asked (cf_bounds cfg') (@nil (scall unit))) [] z.
Proof.
  pose proof (proj1 C22_nonvacuous) as HO.
  destruct (C56_accepts _ unit clock clock_cfg None tt (repeat 1 5) [] trapezoidal HO eq_refl clock_config_ok ltac:(reflexivity) (Forall_nil _) (Forall_nil _)) as [k EK].
  destruct (C51_accepts _ unit clock clock_cfg None tt [] trapezoidal HO eq_refl clock_config_ok (Forall_nil _)) as [a EA].
  destruct (C51_accepts _ unit clock (config_after clock clock_cfg) None tt [] trapezoidal HO eq_refl clock_after_ok (Forall_nil _)) as [a' EA'].
  exists k, a, a', [0; 1; 1; 1; 1]. cbn zeta. split; [exact (chistory_nil _ _ _ _ _ _ _ _ EK)|]. split; [exact EA|]. split; [exact EA'|].
  destruct (history_inv _ _ _ _ _ _ _ _ EA (Forall_nil _)) as (o0 & fm & cyc & a0 & EO & _ & _ & _ & _ & _ & [I1 _ _ _ _ _ _]).
  destruct (history_inv _ _ _ _ _ _ _ _ EA' (Forall_nil _)) as (o0' & fm' & cyc' & a0' & EO' & _ & _ & _ & _ & _ & [I1' _ _ _ _ _ _]).
  vm_compute in EO, EO'. injection EO as <-. injection EO' as <-. unfold o_at in *. split.
  - assert (forall s, (s < 2)%nat -> val (a_o a) [0; 1; 1; 1; 1] "states" "time" s (nth s [0; 1] 0)) as V1.
    { intros s Hs. unfold val, value_at. rewrite I1. destruct s as [|[|s]]; try lia; reflexivity. }
    assert (forall s, (s < 2)%nat -> val (a_o a) [0; 1; 1; 1; 1] "states_dot" "time" s 1) as V2.
    { intros s Hs. unfold val, value_at. rewrite I1. destruct s as [|[|s]]; try lia; reflexivity. }
    assert (forall s, val (a_o a) [0; 1; 1; 1; 1] "global" "mesh_scale" s 1) as V3.
    { intros s. unfold val, value_at. rewrite I1. destruct s; reflexivity. }
    constructor.
    + rewrite I1. reflexivity.
    + intros i j Hi Hj s. change (t_stages trapezoidal) with 2%nat in Hj. exists 1, [("time", nth s [0; 1] 0)], []. eexists. eexists. split; [exact (V3 0%nat)|]. unfold s, stage_of. change (t_stages trapezoidal - 1)%nat with 1%nat. rewrite Nat.mul_1_r. split; [|split; [|split; [reflexivity|]]].
      * split; [reflexivity|]. intros nm v E. cbn in E. destruct (String.eqb_spec nm "time") as [->|]; [|discriminate]. injection E as <-. apply V1. lia.
      * split; [reflexivity|]. discriminate.
      * split; [|split; intros nm []]. intros nm [<-|[]]. eexists. split; [reflexivity|]. apply V2. lia.
    + intros i kk nm Hi Hk [<-|[]]. change (t_stages trapezoidal - 1)%nat with 1%nat in *. exists 1, (fun j => nth (i + j) [0; 1] 0), (fun j => 1). split; [exact (V3 0%nat)|]. split.
      * intros j Hj. change (t_stages trapezoidal) with 2%nat in Hj. unfold stage_of. change (t_stages trapezoidal - 1)%nat with 1%nat. rewrite Nat.mul_1_r. split; [apply V1; lia|apply V2; lia].
      * assert (kk = 0)%nat as -> by lia. unfold interval_length. destruct i as [|i]; try lia; cbn; lra.
    + discriminate.
    + intros g nm s Hk Hs. change (t_stages trapezoidal - 1)%nat with 1%nat in Hs. destruct Hk as [([->| ->] & [<-|[]])|[(_ & [])|[(_ & [])|(-> & _ & ->)]]].
      * eexists. split; [apply V1; lia|]. cbn. auto.
      * eexists. split; [apply V2; lia|]. cbn. auto.
      * eexists. split; [apply V3|]. cbn. auto.
  - intros z T. destruct T as [_ TD _ _ TB].
    destruct (TD 0%nat 0%nat ltac:(lia) ltac:(cbn; lia)) as (L & ds & di & sd & out & _ & _ & _ & E & D & _). cbn in E. injection E as <- <-. destruct (D "time" (or_introl eq_refl)) as (v & Ev & Hv). cbn in Ev. injection Ev as <-.
    destruct (TB "states_dot" "time" 0%nat) as (w & Hw & B1 & B2); [left; split; [now right|now left]|lia|].
    assert (w = 1) as ->. { unfold val, value_at in Hw, Hv. change (stage_of trapezoidal 0 0) with 0%nat in Hv. rewrite Hv in Hw. assert (forall A (x y : A), Ok x = Ok y -> x = y) as OI by (intros A x y X; now injection X). symmetry. apply OI. exact Hw. }
    assert (snd (expected (oc_op (a_o a')) (bounds_asked (cf_bounds (config_after clock clock_cfg)) (@nil (scall unit))) [] "states_dot" "time" 0) = Fin 0) as EB by reflexivity. rewrite EB in B2. cbn in B2. lra.
Qed.
Print Assumptions C56_config_refuted.

(** Changing the model parameters of a condensed problem raises, because the stored constraints have no [set_params]; but the parameters used by the
    chain rule are already the new ones, while the stored model algebra keeps the old ones. The full problem accepts the call. *)
Theorem C56_params_refuted : forall P p',
  (forall k : cattrs P, exists k', cstep k (SParams p') = (k', Raise AttributeError) /\ a_p (k_a k') = p' /\ k_p k' = k_p k /\ k_js k' = k_js k) /\
  (forall a : attrs P, exists a', scall_step a (SParams p') = (a', Ok tt) /\ a_p a' = p').
Proof. intros P p'. split; [intro k|intro a]; eexists; repeat split. Qed.
Print Assumptions C56_params_refuted.
