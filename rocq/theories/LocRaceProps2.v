(** C72, continued: with the default parameters the domain contains all moderate driving, and the initial guess; a car at rest is outside, and there the model has no derivatives. *)
From Verif Require Import Base RBase TreeModel UtilsModel UtilsProofs IoModel CollocModel CollocProofs CollocProps MeshModel MeshProps OcpModel OcpSpec NlpModel NlpSpec AlgModel AlgSpec AlgProofs AlgProps ConvModel ConvSpec
  CyclicSpec BoundModel BoundSpec ScaleModel ScaleSpec ObjSpec BuildModel BuildSpec BuildProofs2 BuildProofs5 BuildProps3 TrackModel TrackSpec TrackProps4 VehModel VehSpec VehProps KinModel TireModel AeroModel LapModel LapSpec LapProofs LapProps LapProps2 LapProps3 LapProps4 LapProps5 RaceModel RaceProofs RaceSpec RaceProofs2 RaceProofs5 RaceProps2 RaceProps3
  DomSpec DomProofs DomProofs2 JaxModel JaxSpec JaxProofs JaxProps2 LocSpec LocJaxSpec LocProofs LocProofs3 LocProps LocProps2 LocProps3 LocCalc LocRaceSpec LocRaceProofs LocRaceProofs2 LocRaceProofs3 LocRaceProps.
Import ListNotations.
Open Scope R_scope.

Lemma constant_smooth : forall Cx Cz, smooth_aero (constant_aero Cx Cz).
Proof. intros Cx Cz D n a b c _ _ _. cbn [constant_aero fst snd]. split; apply tw_const. Qed.
(** moderate driving within the default bounds *)
Theorem C72_default : forall mesh ds di n eta s u k, car_values ds di n eta s u k -> in_bounds s u eta -> Rabs (vy s) < vx s -> 2 * Rabs (yaw_rate s) <= vx s -> Rabs (ax_in u) <= 100 -> Rabs (ay_in u) <= 100 -> n * k < 1 ->
  race_domain default_vehicle default_tire (constant_aero (6 / 10) (19 / 10)) mesh ds di.
Proof.
  intros mesh ds di n eta s u k CV [B1 B2 B3 B4 B5 B6 B7 B8] HY HW HA HB HK. exists n, eta, s, u, k. split; [exact CV|].
  split; [split; cbn [default_vehicle cog_to_fa cog_to_ra track_front track_rear vehicle_mass Iz wheel_inertia]; lra|]. split; [lra|]. split; [pose proof (B5 rl); pose proof (B5 rr); lra|].
  split; [intros c; pose proof (patch_default s u c B8 ltac:(lra) (conj HY HW)); lra|]. split.
  - intro c. cbn [constant_aero snd]. pose proof (load_default s u c 100 B2 B3 HA HB) as L. cbv zeta in L. apply default_tire_defined. lra.
  - split; [lra|apply along_road_nz; assumption].
Qed.
Print Assumptions C72_default.

(** the initial guess of the laptime simulation (50 m/s along the centre line of the track in force) is inside, so the solver starts where its derivatives are exact *)
Theorem C72_guess : forall roots read_csv P tire_out aero_out tire_f aero_f (own : P -> dict R) jac hess js hs c first p cs l f,
  let M := race_model tire_out aero_out tire_f aero_f own jac hess js hs in let cfg := lc_sim c in
  lc_track c = Some first -> oracle_ok roots (cf_tns cfg) -> (1 <= cf_n cfg)%nat -> model_ok M (cf_con cfg) ->
  lap_history roots read_csv M c p cs = Ok l -> Forall lplain cs -> Forall (good_track read_csv) (LTrack first :: cs) -> reads read_csv (track_asked first cs) f ->
  exists x t pl, get_init_guess M l = Ok x /\ make_transcription roots (cf_tname cfg) (cf_tns cfg) = Ok t /\ points_used (cf_n cfg) (cf_points cfg) pl /\
    stays_in (a_o (l_a l)) lap_states lap_inputs t (cf_n cfg) pl (Some (road_length f)) (race_domain default_vehicle default_tire (constant_aero (6 / 10) (19 / 10))) x.
Proof.
  intros roots read_csv P to ao tf af own jac hess js hs c first p cs l f M cfg EC HO Hn MO HH HP HG HF.
  destruct (C52_guess roots read_csv P M c first p cs l f EC HO Hn MO) as (x & t & pl & EX & Lx & ET & PU & HS); try assumption; try (cbn; tauto); [intros a Ha; exact Ha|intros a Ha; exact Ha|].
  exists x, t, pl. split; [exact EX|]. split; [exact ET|]. split; [exact PU|]. intros i j Hi Hj. cbv zeta in HS. specialize (HS i j Hi Hj). destruct HS as (S1 & (k & h & lf & rt & RA & S2) & ds & di & sd & out & HD & HI & _).
  exists (road_length f), ds, di. split; [reflexivity|]. split; [exact HD|]. split; [exact HI|].
  destruct HD as [KD VD]. destruct HI as [KI VI]. destruct (ten_keys ds KD) as (t0 & n0 & eta0 & s0 & ->). destruct (seven_keys di KI) as (u0 & k0 & h0 & ->).
  assert (forall nm a, dget nm (st10 t0 n0 eta0 s0) = Some a -> In nm (m_states M) -> nm <> "time" -> a = guess_state 0 nm) as GS.
  { intros nm a H1 H2 H3. pose proof (val_fun _ _ _ _ _ _ _ (VD nm a H1) (S1 nm H2)) as ->. unfold guess_state. destruct (String.eqb_spec nm "time"); [contradiction|reflexivity]. }
  assert (forall nm a, dget nm (in7 u0 k0 h0) = Some a -> In nm (m_inputs M) -> a = guess_input k h nm) as GI.
  { intros nm a H1 H2. exact (val_fun _ _ _ _ _ _ _ (VI nm a H1) (S2 nm H2)). }
  pose proof (GS "n" _ eq_refl ltac:(cbn; tauto) ltac:(discriminate)) as E1. pose proof (GS "eta" _ eq_refl ltac:(cbn; tauto) ltac:(discriminate)) as E2. pose proof (GS "vx" _ eq_refl ltac:(cbn; tauto) ltac:(discriminate)) as E3.
  pose proof (GS "vy" _ eq_refl ltac:(cbn; tauto) ltac:(discriminate)) as E4. pose proof (GS "yaw_rate" _ eq_refl ltac:(cbn; tauto) ltac:(discriminate)) as E5.
  pose proof (GS "wheel_speed_fl" _ eq_refl ltac:(cbn; tauto) ltac:(discriminate)) as E6. pose proof (GS "wheel_speed_fr" _ eq_refl ltac:(cbn; tauto) ltac:(discriminate)) as E7. pose proof (GS "wheel_speed_rl" _ eq_refl ltac:(cbn; tauto) ltac:(discriminate)) as E8. pose proof (GS "wheel_speed_rr" _ eq_refl ltac:(cbn; tauto) ltac:(discriminate)) as E9.
  pose proof (GI "throttle" _ eq_refl ltac:(cbn; tauto)) as F1. pose proof (GI "brake" _ eq_refl ltac:(cbn; tauto)) as F2. pose proof (GI "steer" _ eq_refl ltac:(cbn; tauto)) as F3. pose proof (GI "ax" _ eq_refl ltac:(cbn; tauto)) as F4. pose proof (GI "ay" _ eq_refl ltac:(cbn; tauto)) as F5.
  unfold guess_state, guess_input in *. cbn [String.eqb Ascii.eqb Bool.eqb existsb orb] in *.
  pose proof PI_RGT_0 as P0. apply (C72_default _ _ _ n0 eta0 s0 u0 k0).
  - unfold car_values. cbn. repeat split.
  - constructor; try lra. intros []; lra.
  - rewrite E3, E4, Rabs_R0. lra.
  - rewrite E3, E5, Rabs_R0. lra.
  - rewrite F4, Rabs_R0. lra.
  - rewrite F5, Rabs_R0. lra.
  - rewrite E1. lra.
Qed.
Print Assumptions C72_guess.

(** a car at rest: the equations have no derivative with respect to its speed, whatever the parameters; the hypothesis of C60 and C51, derivatives everywhere, does not hold of any vehicle with these submodels *)
Theorem C72_standstill_refuted : forall P tire_out aero_out tire_f aero_f (own : P -> dict R) jac hess js hs con p v aero tire,
  realizes tire_out aero_out tire_f aero_f own p v aero tire ->
  let M := race_model tire_out aero_out tire_f aero_f own jac hess js hs in
  (exists w, List.length w = 17%nat /\ forall d, ~ pderiv (derivative_value M p 0 "time") w 3 d) /\ ~ twice_differentiable M con.
Proof.
  intros P to ao tf af own jac hess js hs con p v aero tire RZ M.
  assert (forall w, List.length w = 17%nat -> derivative_value M p 0 "time" w = 1 / road_speed (vget 1 w) (vget 2 w) (vget 15 w) (row_s w)) as EV.
  { intros w L. destruct (race_sem _ _ _ _ _ _ _ _ _ RZ (vget 0 w) (vget 1 w) (vget 2 w) (row_s w) (row_u w) (vget 15 w) (vget 16 w)) as (out & E & _).
    unfold derivative_value, called. pose proof (row_states to ao tf af own jac hess js hs w L) as E1. pose proof (proj1 (row_inputs to ao tf af own jac hess js hs w L)) as E2. fold M in E1, E2. rewrite E1, E2.
    change (m_forward M p (st10 (vget 0 w) (vget 1 w) (vget 2 w) (row_s w)) (in7 (row_u w) (vget 15 w) (vget 16 w)) 0) with (race_forward to ao tf af own p (st10 (vget 0 w) (vget 1 w) (vget 2 w) (row_s w)) (in7 (row_u w) (vget 15 w) (vget 16 w))). rewrite E. reflexivity. }
  assert (forall d, ~ pderiv (derivative_value M p 0 "time") (repeat 0 17) 3 d) as ND.
  { intros d H. unfold pderiv in H. apply (dlim_ext _ (fun t => 1 / t)) in H.
    2:{ intro t. rewrite EV by reflexivity. unfold road_speed. cbn [row_s vx vy]. cbn [repeat upd vget nth]. rewrite cos_0, sin_0. replace ((t * 1 - 0 * 0) / (1 - 0 * 0)) with t by field. reflexivity. }
    cbn [repeat vget nth] in H. assert (continuity_pt (fun t => 1 / t) 0) as C by (apply derivable_continuous_pt; exists d; exact H).
    set (L := 1 / 0) in *. pose proof (Rabs_pos L) as LP. destruct (C 1 Rlt_0_1) as (al & Hal & HC). set (t := Rmin (al / 2) (/ (Rabs L + 2))). assert (0 < / (Rabs L + 2)) as IP by (apply Rinv_0_lt_compat; lra).
    assert (0 < t) as T0 by (apply Rmin_pos; lra). assert (t <= al / 2) as T1 by apply Rmin_l. assert (t <= / (Rabs L + 2)) as T2 by apply Rmin_r.
    specialize (HC t). cbn in HC. unfold R_dist, D_x, no_cond in HC. fold L in HC. assert (Rabs (1 / t - L) < 1) as A.
    { apply HC. split; [split; [exact I|intro; lra]|]. rewrite Rminus_0_r. rewrite Rabs_pos_eq by lra. lra. }
    assert (Rabs L + 2 <= 1 / t) as B.
    { unfold Rdiv. rewrite Rmult_1_l. rewrite <- (Rinv_inv (Rabs L + 2)). apply Rinv_le_contravar; assumption. }
    apply Rabs_def2 in A. pose proof (Rle_abs L). lra. }
  split; [exists (repeat 0 17); split; [reflexivity|exact ND]|].
  intros T. destruct (T p 0) as [T1 _]. destruct (T1 "time") as (H & g & G & _); [cbn; tauto|]. apply (ND (g (repeat 0 17) 3%nat)). apply G; [reflexivity|cbn; lia].
Qed.
Print Assumptions C72_standstill_refuted.

(** ** The hypotheses of C72_lap hold together, and the domain is inhabited *)
Definition lap_now : ex_q := (default_vehicle, default_tire, [("Cx", 6 / 10); ("Cy", 0); ("Cz", 19 / 10)]).
Definition lap_tuning : list (lcall ex_q) := [LOcp (SScales [{| sc_g := "states"; sc_n := "vx"; sc_v := 70 |}]); LTrack "straight.csv"; LOcp (SParams lap_now)].
Definition lap_exact : smodel ex_q := jax_model ideal_jacobian ideal_hessian ex_race.
Lemma lap_race : lap_exact = race_model ex_tire_out aero_outputs ex_tire ex_aero ex_own (m_jac lap_exact) (m_hess lap_exact) (m_js lap_exact) (m_hs lap_exact).
Proof. reflexivity. Qed.
Lemma usual_vehicle : NoDup usual_outputs /\ incl usual_outputs (map (fun nm => prefixed "vehicle" nm) veh_outputs).
Proof. split; [cbn; repeat constructor; cbn; intuition discriminate|]. intros k Hk. cbn in Hk. repeat (destruct Hk as [<-|Hk]; [cbn; tauto|]). contradiction. Qed.
Lemma exact_ok : model_ok lap_exact usual_outputs.
Proof. apply jax_model_ok. destruct usual_vehicle as [U1 U2]. exact (race_declared _ _ _ _ _ _ _ _ _ _ usual_outputs ex_all U1 U2). Qed.
Example C72_nonvacuous : exists c l x pl, let roots := fun _ : list R => [-1; 1/3] in let p := (default_vehicle, default_tire, []) in let cfg := lc_sim c in let now := params_asked p (other_calls lap_tuning) in
  smooth_aero (constant_aero (6 / 10) (19 / 10)) /\ lc_track c = Some "bent.csv" /\ oracle_ok roots (cf_tns cfg) /\ (1 <= cf_n cfg)%nat /\ (forall q, exists v aero tire, realizes ex_tire_out aero_outputs ex_tire ex_aero ex_own q v aero tire) /\
  NoDup (cf_con cfg) /\ incl (cf_con cfg) (map (fun nm => prefixed "vehicle" nm) veh_outputs) /\
  lap_history roots ex_roads lap_exact c p lap_tuning = Ok l /\ Forall lplain lap_tuning /\ Forall (good_track ex_roads) (LTrack "bent.csv" :: lap_tuning) /\ reads ex_roads (track_asked "bent.csv" lap_tuning) straight /\
  Forall (fun c => 0 < sc_v c) (scales_asked (cf_scales cfg) (other_calls lap_tuning)) /\
  realizes ex_tire_out aero_outputs ex_tire ex_aero ex_own now default_vehicle (constant_aero (6 / 10) (19 / 10)) (perantoni_tires default_tire) /\
  autodiff_model ideal_jacobian ideal_hessian ex_race (race_domain default_vehicle default_tire (constant_aero (6 / 10) (19 / 10))) (cf_con cfg) now /\
  points_used (cf_n cfg) (cf_points cfg) pl /\
  stays_in (a_o (l_a l)) lap_states lap_inputs trapezoidal (cf_n cfg) pl (Some (road_length straight)) (race_domain default_vehicle default_tire (constant_aero (6 / 10) (19 / 10))) x.
Proof.
  destruct (make_ltc (Some "bent.csv") None None None (Some true) None None None None None) as [c|] eqn:EM; [|discriminate]. pose proof (proj1 C22_nonvacuous) as HO.
  assert (reads ex_roads "bent.csv" bent) as RB by (exists (table bent); repeat split). assert (reads ex_roads "straight.csv" straight) as RS by (exists (table straight); repeat split).
  assert (Forall tuning lap_tuning) as HT by (unfold lap_tuning; repeat constructor).
  assert (Forall lplain lap_tuning) as HP by (unfold lap_tuning; repeat constructor).
  assert (Forall (good_track ex_roads) (LTrack "bent.csv" :: lap_tuning)) as HG.
  { unfold lap_tuning. apply Forall_cons; [exists bent; split; [exact RB|exact bent_drivable]|]. apply Forall_cons; [exact I|]. apply Forall_cons; [exists straight; split; [exact RS|exact straight_drivable]|]. apply Forall_cons; [exact I|constructor]. }
  assert (shapes (m_jac lap_exact) (m_hess lap_exact) (m_js lap_exact) (m_hs lap_exact)) as SH by (destruct exact_ok as [_ _ _ A B C D]; exact (conj A (conj B (conj C D)))).
  destruct (C54_accepts ex_q ex_tire_out aero_outputs ex_tire ex_aero ex_own _ _ _ _ (fun _ => [-1; 1/3]) ex_roads "bent.csv" (default_vehicle, default_tire, []) (Some true) c lap_tuning SH HO ex_all EM HT) as (l & EL).
  { unfold lap_tuning. apply Forall_cons; [exists bent; split; [exact RB|exact bent_drivable]|]. apply Forall_cons; [intros s [<-|[]]; left; cbn; tauto|]. apply Forall_cons; [exists straight; split; [exact RS|exact straight_drivable]|]. apply Forall_cons; [exact I|constructor]. }
  assert (lc_track c = Some "bent.csv" /\ cf_tname (lc_sim c) = "Trapezoidal" /\ cf_tns (lc_sim c) = None /\ cf_con (lc_sim c) = usual_outputs /\ (1 <= cf_n (lc_sim c))%nat) as (E1 & E2 & E3 & E4 & E5) by (injection EM as <-; repeat split; cbn; lia).
  assert (Forall (fun c => 0 < sc_v c) (scales_asked (cf_scales (lc_sim c)) (other_calls lap_tuning))) as HS by (repeat constructor; cbn; lra).
  assert (oracle_ok (fun _ => [-1; 1/3]) (cf_tns (lc_sim c))) as HO' by (rewrite E3; exact HO).
  destruct (C72_guess (fun _ => [-1; 1/3]) ex_roads ex_q ex_tire_out aero_outputs ex_tire ex_aero ex_own (m_jac lap_exact) (m_hess lap_exact) (m_js lap_exact) (m_hs lap_exact) c "bent.csv" (default_vehicle, default_tire, []) lap_tuning l straight E1 HO' E5) as (x & t & pl & _ & ET & PU & ST); try assumption.
  { rewrite E4. exact exact_ok. }
  rewrite E2, E3 in ET. change (make_transcription _ _ _) with (Ok trapezoidal) in ET. injection ET as <-.
  destruct usual_vehicle as [U1 U2]. pose proof (ex_realizes lap_now) as RZ. change (fun _ _ _ : R => (ex_coeff lap_now "Cx", ex_coeff lap_now "Cz")) with (constant_aero (6 / 10) (19 / 10)) in RZ.
  exists c, l, x, pl. cbv zeta. split; [apply constant_smooth|]. split; [exact E1|]. split; [exact HO'|]. split; [exact E5|]. split; [exact ex_all|]. rewrite E4. split; [exact U1|]. split; [exact U2|]. split; [exact EL|]. split; [exact HP|]. split; [exact HG|]. split; [exact RS|]. split; [exact HS|]. split; [exact RZ|].
  split; [|split; [exact PU|exact ST]]. apply C71_autodiff_exists; [exact (mo_names _ _ exact_ok)|apply race_open; apply constant_smooth].
Qed.

(** the hypotheses of C71_derivatives and C71_jax_derivatives hold together: the problem of this simulation, whose model is not differentiable everywhere *)
Example C71_nonvacuous : exists cfg p cs a, let roots := fun _ : list R => [-1; 1/3] in let dom := race_domain default_vehicle default_tire (constant_aero (6 / 10) (19 / 10)) in
  oracle_ok roots (cf_tns cfg) /\ (1 <= cf_n cfg)%nat /\ declared_ok ex_race (cf_con cfg) /\ In "time" (m_states ex_race) /\ (forall w, cf_pen cfg = Some w -> NoDup (keys w) /\ incl (keys w) (m_inputs ex_race)) /\
  history roots lap_exact cfg (Some 1) p cs = Ok a /\ Forall plain cs /\ Forall (fun c => 0 < sc_v c) (scales_asked (cf_scales cfg) cs) /\
  open_domain ex_race dom /\ twice_differentiable_on ex_race dom (cf_con cfg) (params_asked p cs) /\ autodiff_model ideal_jacobian ideal_hessian ex_race dom (cf_con cfg) (params_asked p cs) /\
  model_ok lap_exact (cf_con cfg) /\ derivatives_on lap_exact dom (cf_con cfg) (params_asked p cs) /\ ~ twice_differentiable ex_race (cf_con cfg).
Proof.
  destruct C72_nonvacuous as (c & l & x & pl & _ & E1 & HO & Hn & ALL & NC & IC & HH & HP & HG & HF & HS & RZ & AD & _).
  destruct (lap_history_expand _ ex_roads ex_q lap_exact c "bent.csv" _ lap_tuning l E1 HO Hn ltac:(discriminate) HH HP HG) as (scs & fm & X & EH & PL & EF & EM & ML & _).
  assert (forall A (g : scall ex_q -> option A) init, (forall s, g (SMeshScale s) = None) -> (forall bs, g (SBounds bs) = None) -> latest g init scs = latest g init (other_calls lap_tuning)) as LE.
  { intros A g init G1 G2. rewrite (latest_expand ex_roads A g G1 G2 fm _ _ X init). reflexivity. }
  assert (scales_asked (cf_scales (lc_sim c)) scs = scales_asked (cf_scales (lc_sim c)) (other_calls lap_tuning)) as E2 by (apply LE; reflexivity).
  assert (@params_asked ex_q (default_vehicle, default_tire, []) scs = @params_asked ex_q (default_vehicle, default_tire, []) (other_calls lap_tuning)) as E3 by (apply LE; reflexivity).
  pose proof (race_declared _ _ _ _ _ _ ex_jac ex_hess ex_none ex_none (cf_con (lc_sim c)) ALL NC IC) as DO. change (race_model ex_tire_out aero_outputs ex_tire ex_aero ex_own ex_jac ex_hess ex_none ex_none) with ex_race in DO.
  destruct (C72_equations ex_q ex_tire_out aero_outputs ex_tire ex_aero ex_own ex_jac ex_hess ex_none ex_none (cf_con (lc_sim c)) _ _ _ _ 0 (constant_smooth _ _) RZ IC) as (OD & TD & PF & DF). change (race_model ex_tire_out aero_outputs ex_tire ex_aero ex_own ex_jac ex_hess ex_none ex_none) with ex_race in OD, TD, PF.
  destruct (C71_jax_exact ideal_jacobian ideal_hessian ex_q ex_race (cf_con (lc_sim c)) _ _ DO OD TD AD) as [MO DE].
  exists (with_penalty (lc_sim c)), ((default_vehicle, default_tire, []) : ex_q), scs, (l_a l). cbv zeta. cbn [with_penalty cf_tns cf_n cf_con cf_pen cf_scales]. rewrite E2, E3.
  split; [exact HO|]. split; [exact Hn|]. split; [exact DO|]. split; [cbn; tauto|].
  split; [intros w Hw; injection Hw as <-; split; [repeat constructor; cbn; tauto|intros a Ha; cbn in Ha; destruct Ha as [<-|[]]; cbn; tauto]|].
  split; [exact EH|]. split; [exact PL|]. split; [exact HS|]. split; [exact OD|]. split; [exact TD|]. split; [exact AD|]. split; [exact MO|]. split; [exact DE|].
  exact (proj2 (C72_standstill_refuted ex_q ex_tire_out aero_outputs ex_tire ex_aero ex_own ex_jac ex_hess ex_none ex_none (cf_con (lc_sim c)) _ _ _ _ RZ)).
Qed.
