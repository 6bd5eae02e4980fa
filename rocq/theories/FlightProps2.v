(** C53, continued: the configuration, the initial guess, the total time, limits of the flight, and examples. *)
From Verif Require Import Base RBase TreeModel UtilsModel UtilsProofs IoModel CollocModel CollocProofs CollocProps MeshModel MeshProps OcpModel OcpSpec OcpProofs OcpProps NlpModel NlpSpec AlgModel AlgSpec ConvModel ConvSpec CyclicSpec BoundModel BoundSpec ScaleModel ScaleSpec
  BuildModel BuildSpec BuildProofs BuildProofs4 BuildProofs5 BuildProofs6 BuildProps BuildProps2 BuildProps3 BuildProps4 GuessProofs LapModel LapSpec DroneModel FlightModel FlightSpec FlightProofs FlightProps.

(** ** The configuration *)
Definition usual_flight_bounds : list (string * string * R * R) :=
  [("states", "x", -50, 50); ("states", "x_dot", -50, 50); ("states", "z", -50, 50); ("states", "z_dot", -50, 50); ("states", "theta", -10 * PI, 10 * PI); ("inputs", "f", 1, 20); ("inputs", "omega", -10, 10); ("global", "mesh_scale", 1 / 10, 50)].
Definition usual_flight_ends : list (Z * string * R) :=
  [(0%Z, "x", 0); (0%Z, "x_dot", 0); (0%Z, "z", 0); (0%Z, "z_dot", 0); (0%Z, "theta", 0); ((-1)%Z, "x", 0); ((-1)%Z, "x_dot", 0); ((-1)%Z, "z", 5); ((-1)%Z, "z_dot", 0); ((-1)%Z, "theta", 2 * PI)].
Theorem C53_config : forall n points transcription is_cyclic non_cyclic con bounds bcs scales,
  let s := make_drone_config n points transcription is_cyclic non_cyclic con bounds bcs scales in
    as_given n 99%nat (cf_n s) /\ cf_points s = points /\ as_given transcription ("Trapezoidal", None) (cf_tname s, cf_tns s) /\ as_given is_cyclic false (cf_cyclic s) /\
    as_given non_cyclic [] (cf_noncyclic s) /\ as_given con ["sin_theta"] (cf_con s) /\
    as_given bounds (map (fun '(g, nm, l, u) => {| bg := g; bn := nm; bv := BSc (Fin l) (Fin u) |}) usual_flight_bounds) (cf_bounds s) /\
    as_given bcs (map (fun '(s, nm, v) => {| cstage := s; cg := "states"; cn := nm; cv := BSc (Fin v) (Fin v) |}) usual_flight_ends) (cf_bcs s) /\ as_given scales [] (cf_scales s) /\ cf_pen s = None.
Proof.
  intros n points transcription is_cyclic non_cyclic con bounds bcs scales s. unfold s, make_drone_config. cbn [cf_n cf_points cf_tname cf_tns cf_cyclic cf_noncyclic cf_con cf_bounds cf_bcs cf_scales cf_pen]. rewrite <- surjective_pairing.
  repeat match goal with |- _ /\ _ => split end; destruct n, transcription, is_cyclic, non_cyclic, con, bounds, bcs, scales; reflexivity.
Qed.
Print Assumptions C53_config.
(** The default configuration is accepted for every number of intervals and every valid list of points, with any scales for existing variables; so are later changes. *)
Theorem C53_accepts : forall roots jac hess js hs n pts scales g cs, shapes jac hess js hs -> oracle_ok roots None -> (1 <= n)%nat ->
  (forall q, pts = Some q -> List.length q = (n + 1)%nat /\ Rabs (nth 0 q 0) < 1 / 1000000 /\ Rabs (nth n q 0 - 1) < 1 / 1000000 /\ forall i j, (i < j)%nat -> (j <= n)%nat -> nth i q 0 < nth j q 0) ->
  let known c := known_var drone_states drone_inputs ["sin_theta"] None (sc_g c) (sc_n c) in
  Forall known scales -> Forall tuning cs -> (forall s, In (SScales s) cs -> Forall known s) ->
  exists a, history roots (drone_model jac hess js hs) (default_drone n pts scales) None g cs = Ok a.
Proof.
  intros roots jac hess js hs n pts scales g cs HS HO Hn HP known HK HT HC. pose proof PI_RGT_0 as HPI.
  apply (C51_accepts roots R (drone_model jac hess js hs) (default_drone n pts scales) None g cs trapezoidal HO eq_refl).
  - constructor; cbn [default_drone make_drone_config cf_n cf_points cf_tname cf_tns cf_cyclic cf_noncyclic cf_con cf_bounds cf_bcs cf_scales cf_pen or_default drone_model m_states m_inputs].
    + exact Hn.
    + discriminate.
    + now apply drone_model_ok.
    + exact HP.
    + discriminate.
    + discriminate.
    + discriminate.
    + intros b Hb. unfold setting_ok, known_var. cbn [drone_bounds In] in Hb. repeat (destruct Hb as [<-|Hb]; [split; [cbn; tauto|]; split; [exact (fun _ => I)|cbn [of_bound k_v sbound bv le_bound]; lra]|]). contradiction.
    + intros b Hb. unfold setting_ok, known_var. cbn [drone_bcs In] in Hb. repeat (destruct Hb as [<-|Hb]; [split; [cbn; tauto|]; split; [intros _; cbn [of_bc k_stage at_stage cstage trapezoidal t_stages Nat.sub]; rewrite Nat.mul_1_r; lia|cbn [of_bc k_v at_stage cv le_bound]; lra]|]). contradiction.
    + apply Forall_forall. exact HK.
  - apply Forall_forall. intros c Hc. rewrite Forall_forall in HT. specialize (HT c Hc). destruct c as [b|b|s|p|s|q]; try contradiction; [|exact I]. cbn [call_ok]. specialize (HC s Hc). rewrite Forall_forall in HC. exact HC.
Qed.
Print Assumptions C53_accepts.

(** ** The initial guess *)
Theorem C53_guess : forall roots jac hess js hs n pts scales g cs a, shapes jac hess js hs -> oracle_ok roots None -> (1 <= n)%nat ->
  let M := drone_model jac hess js hs in history roots M (default_drone n pts scales) None g cs = Ok a -> Forall tuning cs -> let now := params_asked g cs in
  exists x, drone_init_guess M a = Ok x /\
    logs n now (a_o a) x {| f_T := 1; f_x := fun _ => 1 / 10; f_vx := fun _ => 1 / 10; f_z := fun _ => 1 / 10; f_vz := fun _ => 1 / 10; f_th := fun _ => 1 / 10; f_f := fun _ => 10; f_om := fun _ => 0 |}.
Proof.
  intros roots jac hess js hs n pts scales g cs a HS HO Hn M HH HT now. destruct (tuning_plain cs HT) as (HP & _ & _). pose proof (drone_model_ok jac hess js hs HS) as MO.
  set (cfg := default_drone n pts scales) in *.
  destruct (the_facts roots R M cfg None g cs a HO Hn (ltac:(discriminate)) MO HH HP) as (o & fm & pl & ops & h & F).
  pose proof (fa_o _ _ _ _ _ _ _ _ _ _ _ _ _ F) as EO. pose proof (fa_built _ _ _ _ _ _ _ _ _ _ _ _ _ F) as BU. pose proof (fa_tr _ _ _ _ _ _ _ _ _ _ _ _ _ F) as TR. pose proof (fa_ns _ _ _ _ _ _ _ _ _ _ _ _ _ F) as NS.
  pose proof (fa_lfm _ _ _ _ _ _ _ _ _ _ _ _ _ F) as LF. pose proof (fa_p _ _ _ _ _ _ _ _ _ _ _ _ _ F) as EP. fold now in EP. pose proof (fa_con _ _ _ _ _ _ _ _ _ _ _ _ _ F) as EC. change (cf_con cfg) with ["sin_theta"] in EC.
  change (make_transcription roots (cf_tname cfg) (cf_tns cfg)) with (Ok trapezoidal) in TR. injection TR as TR. rewrite <- TR in NS.
  assert (num_stages (oc_op o) = (n + 1)%nat) as NS'. { change (num_stages (oc_op o) = (n * 1 + 1)%nat) in NS. lia. }
  assert (flat_mesh (oc_mesh (a_o a)) = Ok fm) as EF.
  { destruct (history_inv roots R M cfg None g cs a HH HP) as (o0 & fm0 & cyc & a0 & E1 & E2 & _ & _ & _ & _ & I). destruct I as [I1 _ I3 _ _ _ _]. rewrite I1. rewrite (proj1 (proj2 (op_at _ _ _))). rewrite E2. f_equal. rewrite <- I3. apply (fa_mesh _ _ _ _ _ _ _ _ _ _ _ _ _ F). }
  destruct (C23_scaled _ fm 1 0%nat EF) as (sm & ESM & LSM & _).
  set (k := {| f_T := 1; f_x := fun _ => 1 / 10; f_vx := fun _ => 1 / 10; f_z := fun _ => 1 / 10; f_vz := fun _ => 1 / 10; f_th := fun _ => 1 / 10; f_f := fun _ => 10; f_om := fun _ => 0 |}).
  subst o. set (o := a_o a) in *.
  destruct (plan_flat roots n pts o jac hess js hs now k (map (map (fun v => v + 1 / 10)) (repeat (map (fun v => v * 0) (repeat 1 5)) (n + 1))) (repeat (map2 Rplus (repeat 0 2) [10; 0]) (n + 1)) sm BU HS NS') as (ret & x & ER & EX & HL).
  - rewrite map_length. apply repeat_length.
  - apply repeat_length.
  - rewrite LSM, LF. exact NS'.
  - intros s Hs. rewrite (nth_map_in _ _ _ _ _ _ []) by (rewrite repeat_length; lia). rewrite (BoundProofs.nth_repeat_lt _ _ []) by lia. cbn [repeat map]. unfold k. cbn [f_x f_vx f_z f_vz f_th]. now replace (1 * 0 + 1 / 10) with (1 / 10) by lra.
  - intros s Hs. rewrite (BoundProofs.nth_repeat_lt _ _ []) by lia. cbn [repeat map2]. unfold k. cbn [f_f f_om]. now rewrite !Rplus_0_l.
  - exists x. split; [|exact HL]. unfold drone_init_guess. fold o. cbv zeta. change (List.length (m_inputs M)) with 2%nat. change (List.length (m_states M)) with 5%nat. cbn [Nat.eqb bind]. rewrite NS', ESM. cbn [bind]. rewrite EC, EP. fold M in ER. rewrite ER. cbn [bind]. exact EX.
Qed.
Print Assumptions C53_guess.
