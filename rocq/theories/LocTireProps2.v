(** C76, continued: a laptime simulation with the default vehicle and the default MF5.2 tire at every wheel. *)
From Verif Require Import Base RBase TreeModel UtilsModel UtilsProofs IoModel CollocModel CollocProofs CollocProps MeshModel MeshProps OcpModel OcpSpec NlpModel NlpSpec AlgModel AlgSpec AlgProofs AlgProps ConvModel ConvSpec
  CyclicSpec BoundModel BoundSpec ScaleModel ScaleSpec ObjSpec BuildModel BuildSpec BuildProofs2 BuildProofs5 BuildProps3 TrackModel TrackSpec TrackProps4 VehModel VehSpec VehProps KinModel TireModel AeroModel LapModel LapSpec LapProofs LapProps LapProps2 LapProps3 LapProps4 LapProps5 RaceModel RaceProofs RaceSpec RaceProofs2 RaceProofs5 RaceProps2 RaceProps3
  DomSpec DomProofs DomProofs2 JaxModel JaxSpec JaxProofs JaxProps2 LocSpec LocJaxSpec LocProofs LocProofs3 LocProps LocProps2 LocProps3 LocCalc LocRaceSpec LocRaceProofs LocRaceProofs2 LocRaceProofs3 LocRaceProps LocRaceProps2
  PacModel PacSpec PacProofs PacProps PacProps3 PacProps4 LocPacSpec LocPacProofs LocPacProps LocTireSpec LocTireProofs LocTireProofs2 LocTireProps.
Import ListNotations.
Open Scope R_scope.

(** the initial guess of the laptime simulation (50 m/s along the centre line of the track in force) is inside, so the solver starts where its derivatives are exact *)
Theorem C76_guess : forall roots read_csv P tire_out aero_out tire_f aero_f (own : P -> dict R) jac hess js hs c first p cs l f,
  let M := race_model tire_out aero_out tire_f aero_f own jac hess js hs in let cfg := lc_sim c in
  lc_track c = Some first -> oracle_ok roots (cf_tns cfg) -> (1 <= cf_n cfg)%nat -> model_ok M (cf_con cfg) ->
  lap_history roots read_csv M c p cs = Ok l -> Forall lplain cs -> Forall (good_track read_csv) (LTrack first :: cs) -> reads read_csv (track_asked first cs) f ->
  exists x t pl, get_init_guess M l = Ok x /\ make_transcription roots (cf_tname cfg) (cf_tns cfg) = Ok t /\ points_used (cf_n cfg) (cf_points cfg) pl /\
    stays_in (a_o (l_a l)) lap_states lap_inputs t (cf_n cfg) pl (Some (road_length f)) (tires_domain default_vehicle (constant_aero (6 / 10) (19 / 10)) default_points) x.
Proof.
  intros roots read_csv P to ao tf af own jac hess js hs c first p cs l f M cfg EC HO Hn MO HH HP HG HF.
  destruct (C52_guess roots read_csv P M c first p cs l f EC HO Hn MO) as (x & t & pl & EX & Lx & ET & PU & HS); try assumption; try (cbn; tauto); [intros a Ha; exact Ha|intros a Ha; exact Ha|].
  exists x, t, pl. split; [exact EX|]. split; [exact ET|]. split; [exact PU|]. intros i j Hi Hj. cbv zeta in HS. specialize (HS i j Hi Hj). destruct HS as (S1 & (k & h & lf & rt & RA & S2) & ds & di & sd & out & HD & HI & _).
  exists (road_length f), ds, di. split; [reflexivity|]. split; [exact HD|]. split; [exact HI|].
  destruct HD as [KD VD]. destruct HI as [KI VI]. destruct (ten_keys ds KD) as (t0 & n0 & eta0 & s0 & ->). destruct (seven_keys di KI) as (u0 & k0 & h0 & ->).
  assert (forall nm a, dget nm (st10 t0 n0 eta0 s0) = Some a -> In nm (m_states M) -> nm <> "time" -> a = guess_state 0 nm) as GS.
  { intros nm a H1 H2 H3. pose proof (val_fun _ _ _ _ _ _ _ (VD nm a H1) (S1 nm H2)) as ->. unfold guess_state. destruct (String.eqb_spec nm "time"); [contradiction|reflexivity]. }
  assert (forall nm a, dget nm (in7 u0 k0 h0) = Some a -> In nm (m_inputs M) -> a = guess_input k h nm) as GI.
  { intros nm a H1 H2. exact (val_fun _ _ _ _ _ _ _ (VI nm a H1) (S2 nm H2)). }
  pose proof (GS "n" _ eq_refl ltac:(cbn; tauto) ltac:(discriminate)) as E1. pose proof (GS "eta" _ eq_refl ltac:(cbn; tauto) ltac:(discriminate)) as E2. pose proof (GS "vx" _ eq_refl ltac:(cbn; tauto) ltac:(discriminate)) as E3.
  pose proof (GS "vy" _ eq_refl ltac:(cbn; tauto) ltac:(discriminate)) as E4. pose proof (GS "yaw_rate" _ eq_refl ltac:(cbn; tauto) ltac:(discriminate)) as E5.
  pose proof (GS "wheel_speed_fl" _ eq_refl ltac:(cbn; tauto) ltac:(discriminate)) as E6. pose proof (GS "wheel_speed_fr" _ eq_refl ltac:(cbn; tauto) ltac:(discriminate)) as E7. pose proof (GS "wheel_speed_rl" _ eq_refl ltac:(cbn; tauto) ltac:(discriminate)) as E8. pose proof (GS "wheel_speed_rr" _ eq_refl ltac:(cbn; tauto) ltac:(discriminate)) as E9.
  pose proof (GI "throttle" _ eq_refl ltac:(cbn; tauto)) as F1. pose proof (GI "brake" _ eq_refl ltac:(cbn; tauto)) as F2. pose proof (GI "steer" _ eq_refl ltac:(cbn; tauto)) as F3. pose proof (GI "ax" _ eq_refl ltac:(cbn; tauto)) as F4. pose proof (GI "ay" _ eq_refl ltac:(cbn; tauto)) as F5.
  unfold guess_state, guess_input in *. cbn [String.eqb Ascii.eqb Bool.eqb existsb orb] in *.
  pose proof PI_RGT_0 as P0. apply (C76_default _ _ _ n0 eta0 s0 u0 k0).
  - unfold car_values. cbn. repeat split.
  - constructor; try lra. intros []; lra.
  - rewrite E3, E4, Rabs_R0. lra.
  - rewrite E3, E5, Rabs_R0. lra.
  - rewrite F4, Rabs_R0. lra.
  - rewrite F5, Rabs_R0. lra.
  - rewrite E1. lra.
Qed.
Print Assumptions C76_guess.

(** ** the default MF5.2 tire (force mode) at every wheel *)
Definition shown (v : option (option R)) : R := match v with Some (Some r) => r | _ => 0 end.
Definition tire_inputs (Fz kappa alpha vx gamma : R) : dict R := [("Fz", Fz); ("kappa", kappa); ("alpha", alpha); ("vx", vx); ("gamma", gamma)].
Definition ex_mf_tire : corner -> tire_model := fun _ Fz kappa alpha vx gamma =>
  match mf_forward true mf_default (tire_inputs Fz kappa alpha vx gamma) with Ok out => (shown (dget "Fx" out), shown (dget "Fy" out)) | Raise _ => (0, 0) end.
Definition ex_mf (q : ex_q) (c : corner) (d : dict R) : result (dict R) := bind (mf_forward true mf_default d) (fun out => Ok (map (fun nm => (nm, shown (dget nm out))) mf_outputs)).
Lemma mf_runs : forall inputs Fz kappa alpha vx gamma, mf_inputs inputs Fz kappa alpha vx gamma -> exists out, mf_forward true mf_default inputs = Ok out /\ mf_forward true mf_default (tire_inputs Fz kappa alpha vx gamma) = Ok out.
Proof.
  intros inputs Fz kappa alpha vx gamma HI. assert (forall n, In n (force_names ++ []) -> dget n mf_default <> None) as HN by (intros n Hn; rewrite (dp_given true n Hn); discriminate).
  eexists. split; [rewrite (forward_is true mf_default inputs _ _ _ _ _ HI HN); reflexivity|]. rewrite (forward_is true mf_default (tire_inputs Fz kappa alpha vx gamma) Fz kappa alpha vx gamma); [reflexivity|repeat split|exact HN].
Qed.
Lemma ex_mf_uses : mf52_tires true mf_default ex_mf_tire.
Proof.
  intros c Fz kappa alpha vx gamma inputs out fx fy HI E X1 X2. destruct (mf_runs inputs _ _ _ _ _ HI) as (out' & E1 & E2). rewrite E in E1. injection E1 as <-. unfold ex_mf_tire. rewrite E2, X1, X2. reflexivity.
Qed.
Lemma ex_mf_smooth : smooth_tires ex_mf_tire default_points.
Proof. apply (C76_mf52 true mf_default dp ex_mf_tire (dp_given true)); [dflt; lra|exact ex_mf_uses]. Qed.
Lemma ex_mf_realizes : forall q, realizes mf_outputs aero_outputs ex_mf ex_aero ex_own q (fst (fst q)) (fun _ _ _ => (ex_coeff q "Cx", ex_coeff q "Cz")) ex_mf_tire.
Proof.
  intro q. destruct (ex_realizes q) as [A B _]. constructor; [exact A|exact B|]. intros c Fz kappa alpha vx gamma. change [("Fz", Fz); ("kappa", kappa); ("alpha", alpha); ("vx", vx); ("gamma", gamma)] with (tire_inputs Fz kappa alpha vx gamma).
  destruct (mf_runs (tire_inputs Fz kappa alpha vx gamma) Fz kappa alpha vx gamma ltac:(repeat split)) as (out & _ & E). unfold ex_mf_tire, ex_mf. rewrite E. cbn [bind fst snd].
  exists (map (fun nm => (nm, shown (dget nm out))) mf_outputs). split; [reflexivity|]. split; [unfold keys; rewrite map_map; cbn; repeat constructor; cbn; intuition discriminate|]. split; [unfold keys; rewrite map_map; cbn [fst]; rewrite map_id; intros a Ha; exact Ha|]. split; reflexivity.
Qed.
Lemma ex_mf_all : forall q, exists v aero tire, realizes mf_outputs aero_outputs ex_mf ex_aero ex_own q v aero tire.
Proof. intro q. eauto using ex_mf_realizes. Qed.
Definition ex_mf_race : smodel ex_q := race_model mf_outputs aero_outputs ex_mf ex_aero ex_own ex_jac ex_hess ex_none ex_none.
Definition mf_exact : smodel ex_q := jax_model ideal_jacobian ideal_hessian ex_mf_race.
Lemma mf_exact_ok : model_ok mf_exact usual_outputs.
Proof. apply jax_model_ok. destruct usual_vehicle as [U1 U2]. exact (race_declared _ _ _ _ _ _ _ _ _ _ usual_outputs ex_mf_all U1 U2). Qed.
Example C76_nonvacuous : exists c l x pl, let roots := fun _ : list R => [-1; 1/3] in let p := (default_vehicle, default_tire, []) in let cfg := lc_sim c in let now := params_asked p (other_calls lap_tuning) in
  smooth_aero (constant_aero (6 / 10) (19 / 10)) /\ smooth_tires ex_mf_tire default_points /\ mf52_tires true mf_default ex_mf_tire /\ lc_track c = Some "bent.csv" /\ oracle_ok roots (cf_tns cfg) /\ (1 <= cf_n cfg)%nat /\ (forall q, exists v aero tire, realizes mf_outputs aero_outputs ex_mf ex_aero ex_own q v aero tire) /\
  NoDup (cf_con cfg) /\ incl (cf_con cfg) (map (fun nm => prefixed "vehicle" nm) veh_outputs) /\
  lap_history roots ex_roads mf_exact c p lap_tuning = Ok l /\ Forall lplain lap_tuning /\ Forall (good_track ex_roads) (LTrack "bent.csv" :: lap_tuning) /\ reads ex_roads (track_asked "bent.csv" lap_tuning) straight /\
  Forall (fun c => 0 < sc_v c) (scales_asked (cf_scales cfg) (other_calls lap_tuning)) /\
  realizes mf_outputs aero_outputs ex_mf ex_aero ex_own now default_vehicle (constant_aero (6 / 10) (19 / 10)) ex_mf_tire /\
  autodiff_model ideal_jacobian ideal_hessian ex_mf_race (tires_domain default_vehicle (constant_aero (6 / 10) (19 / 10)) default_points) (cf_con cfg) now /\
  points_used (cf_n cfg) (cf_points cfg) pl /\
  stays_in (a_o (l_a l)) lap_states lap_inputs trapezoidal (cf_n cfg) pl (Some (road_length straight)) (tires_domain default_vehicle (constant_aero (6 / 10) (19 / 10)) default_points) x.
Proof.
  destruct (make_ltc (Some "bent.csv") None None None (Some true) None None None None None) as [c|] eqn:EM; [|discriminate]. pose proof (proj1 C22_nonvacuous) as HO.
  assert (reads ex_roads "bent.csv" bent) as RB by (exists (table bent); repeat split). assert (reads ex_roads "straight.csv" straight) as RS by (exists (table straight); repeat split).
  assert (Forall tuning lap_tuning) as HT by (unfold lap_tuning; repeat constructor).
  assert (Forall lplain lap_tuning) as HP by (unfold lap_tuning; repeat constructor).
  assert (Forall (good_track ex_roads) (LTrack "bent.csv" :: lap_tuning)) as HG.
  { unfold lap_tuning. apply Forall_cons; [exists bent; split; [exact RB|exact bent_drivable]|]. apply Forall_cons; [exact I|]. apply Forall_cons; [exists straight; split; [exact RS|exact straight_drivable]|]. apply Forall_cons; [exact I|constructor]. }
  assert (shapes (m_jac mf_exact) (m_hess mf_exact) (m_js mf_exact) (m_hs mf_exact)) as SH by (destruct mf_exact_ok as [_ _ _ A B C D]; exact (conj A (conj B (conj C D)))).
  destruct (C54_accepts ex_q mf_outputs aero_outputs ex_mf ex_aero ex_own _ _ _ _ (fun _ => [-1; 1/3]) ex_roads "bent.csv" (default_vehicle, default_tire, []) (Some true) c lap_tuning SH HO ex_mf_all EM HT) as (l & EL).
  { unfold lap_tuning. apply Forall_cons; [exists bent; split; [exact RB|exact bent_drivable]|]. apply Forall_cons; [intros s [<-|[]]; left; cbn; tauto|]. apply Forall_cons; [exists straight; split; [exact RS|exact straight_drivable]|]. apply Forall_cons; [exact I|constructor]. }
  assert (lc_track c = Some "bent.csv" /\ cf_tname (lc_sim c) = "Trapezoidal" /\ cf_tns (lc_sim c) = None /\ cf_con (lc_sim c) = usual_outputs /\ (1 <= cf_n (lc_sim c))%nat) as (E1 & E2 & E3 & E4 & E5) by (injection EM as <-; repeat split; cbn; lia).
  assert (Forall (fun c => 0 < sc_v c) (scales_asked (cf_scales (lc_sim c)) (other_calls lap_tuning))) as HS by (repeat constructor; cbn; lra).
  assert (oracle_ok (fun _ => [-1; 1/3]) (cf_tns (lc_sim c))) as HO' by (rewrite E3; exact HO).
  destruct (C76_guess (fun _ => [-1; 1/3]) ex_roads ex_q mf_outputs aero_outputs ex_mf ex_aero ex_own (m_jac mf_exact) (m_hess mf_exact) (m_js mf_exact) (m_hs mf_exact) c "bent.csv" (default_vehicle, default_tire, []) lap_tuning l straight E1 HO' E5) as (x & t & pl & _ & ET & PU & ST); try assumption.
  { rewrite E4. exact mf_exact_ok. }
  rewrite E2, E3 in ET. change (make_transcription _ _ _) with (Ok trapezoidal) in ET. injection ET as <-.
  destruct usual_vehicle as [U1 U2]. pose proof (ex_mf_realizes lap_now) as RZ. change (fun _ _ _ : R => (ex_coeff lap_now "Cx", ex_coeff lap_now "Cz")) with (constant_aero (6 / 10) (19 / 10)) in RZ.
  exists c, l, x, pl. cbv zeta. split; [apply constant_smooth|]. split; [exact ex_mf_smooth|]. split; [exact ex_mf_uses|]. split; [exact E1|]. split; [exact HO'|]. split; [exact E5|]. split; [exact ex_mf_all|]. rewrite E4. split; [exact U1|]. split; [exact U2|]. split; [exact EL|]. split; [exact HP|]. split; [exact HG|]. split; [exact RS|]. split; [exact HS|]. split; [exact RZ|].
  split; [|split; [exact PU|exact ST]]. apply C71_autodiff_exists; [exact (mo_names _ _ mf_exact_ok)|apply tires_open with (tire := ex_mf_tire); [apply constant_smooth|exact ex_mf_smooth]].
Qed.

