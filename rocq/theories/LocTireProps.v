(** C76: the derivatives given to IPOPT by the laptime simulation of the vehicle with any tires whose forces have second derivatives: Perantoni's, or the MF5.2 tire. *)
From Verif Require Import Base RBase TreeModel UtilsModel UtilsProofs IoModel CollocModel CollocProofs CollocProps MeshModel MeshProps OcpModel OcpSpec NlpModel NlpSpec AlgModel AlgSpec AlgProofs AlgProps ConvModel ConvSpec
  CyclicSpec BoundModel BoundSpec ScaleModel ScaleSpec ObjSpec BuildModel BuildSpec BuildProofs2 BuildProps3 TrackModel TrackSpec VehModel VehSpec VehProps KinModel TireModel LapModel LapSpec LapProofs LapProps LapProps2 LapProps4 RaceModel RaceProofs RaceSpec RaceProofs2 RaceProofs5 RaceProps2 RaceProps3
  DomSpec DomProofs DomProofs2 JaxModel JaxSpec JaxProofs JaxProps2 LocSpec LocJaxSpec LocProofs LocProofs3 LocProps LocProps2 LocCalc LocRaceSpec LocRaceProofs LocRaceProofs2 LocRaceProofs3 LocRaceProps LocRaceProps2
  PacModel PacSpec PacProofs PacProps PacProps3 PacProps4 LocPacSpec LocPacProofs LocPacProps LocTireSpec LocTireProofs LocTireProofs2.
Import ListNotations.
Open Scope R_scope.

(** The equations of the vehicle with any smooth tires and any aero model with second derivatives: the domain is open, and there all derivatives and the outputs used have second derivatives. *)
Theorem C76_equations : forall P tire_out aero_out tire_f aero_f (own : P -> dict R) jac hess js hs con p v aero tire good mesh0, smooth_aero aero -> smooth_tires tire good ->
  realizes tire_out aero_out tire_f aero_f own p v aero tire -> incl con (map (fun nm => prefixed "vehicle" nm) veh_outputs) ->
  let M := race_model tire_out aero_out tire_f aero_f own jac hess js hs in
  open_domain M (tires_domain v aero good) /\ twice_differentiable_on M (tires_domain v aero good) con p /\ position_free M /\ (forall m ds di, tires_domain v aero good m ds di -> tires_domain v aero good mesh0 ds di).
Proof.
  intros P to ao tf af own jac hess js hs con p v aero tire good mesh0 SA ST RZ IC M. split; [exact (tires_open to ao tf af own jac hess js hs v aero tire good SA ST)|]. split; [exact (tires_smooth to ao tf af own jac hess js hs p v aero tire good SA ST RZ con IC)|].
  split; [intros q ds di m m'; reflexivity|]. intros m ds di H. exact H.
Qed.
Print Assumptions C76_equations.

(** Perantoni's tires are smooth at the loads at which they are defined. *)
Theorem C76_perantoni : forall t, smooth_tires (perantoni_tires t) (fun _ Fz _ _ => tire_defined t Fz).
Proof.
  intros t c D n Fz kappa alpha speed RM TF TK TA TV. split.
  - refine (roomy_sub _ _ n _ (roomy_list n [(fun _ => Fz1 t - Fz2 t); (fun w => kappa1 t * (Fz2 t - Fz w) - kappa2 t * (Fz1 t - Fz w)); (fun w => alpha1 t * (Fz2 t - Fz w) - alpha2 t * (Fz1 t - Fz w)); (fun _ => Qx t); (fun _ => Qy t)] D RM _)).
    + intros w _. split.
      * intros [HD [A1 A2 A3 A4 A5]]. split; [exact HD|]. repeat (apply Forall_cons; [try assumption; intro; lra|]). constructor.
      * intros [HD A]. split; [exact HD|]. do 5 (apply Forall_cons_iff in A; destruct A as [? A]). constructor; try assumption; now apply Rminus_diag_neq'.
    + repeat (apply Forall_cons; [tw|]). constructor.
  - intro H. exact (tw_tire D n t Fz kappa alpha speed (fun _ => 0) H TF TK TA).
Qed.
Print Assumptions C76_perantoni.

(** The MF5.2 tire at every wheel is smooth at the smooth points of its parameters. *)
Theorem C76_mf52 : forall opt_mode params p tire, given params opt_mode p -> p "LFZO" * p "FNOMIN" <> 0 -> mf52_tires opt_mode params tire ->
  smooth_tires tire (fun _ Fz kappa alpha => smooth_point p (Fz / (p "LFZO" * p "FNOMIN") - 1) 0 Fz kappa alpha).
Proof.
  intros opt_mode params p tire GI N0 UT c D n Fz kappa alpha speed RM TF TK TA TV. split; [now apply C75_open|]. intro OK.
  destruct (C75_forces opt_mode params p D n Fz kappa alpha speed 0 GI N0 TF TK TA OK) as (fx & fy & A & B & H).
  assert (forall w, List.length w = n -> D w -> tire c (Fz w) (kappa w) (alpha w) (speed w) 0 = (fx w, fy w)) as E.
  { intros w L HD. set (inputs := [("Fz", Fz w); ("kappa", kappa w); ("alpha", alpha w); ("vx", speed w); ("gamma", 0)]). assert (mf_inputs inputs (Fz w) (kappa w) (alpha w) (speed w) 0) as HI by (repeat split).
    destruct (H w inputs L HD HI) as (out & E & X1 & X2). exact (UT c _ _ _ _ _ inputs out (fx w) (fy w) HI E X1 X2). }
  split; [refine (tw_on D n fx _ RM _ A)|refine (tw_on D n fy _ RM _ B)]; intros w L HD; now rewrite (E w L HD).
Qed.
Print Assumptions C76_mf52.

Definition default_points : corner -> R -> R -> R -> Prop := fun _ Fz kappa alpha => smooth_point dp (Fz / (dp "LFZO" * dp "FNOMIN") - 1) 0 Fz kappa alpha.
(** With the default vehicle and the default MF5.2 tire, driving within the bounds at accelerations up to 4 m/s2 is inside. *)
Theorem C76_default : forall mesh ds di n eta s u k, car_values ds di n eta s u k -> in_bounds s u eta -> Rabs (vy s) < vx s -> 2 * Rabs (yaw_rate s) <= vx s -> Rabs (ax_in u) <= 4 -> Rabs (ay_in u) <= 4 -> n * k < 1 ->
  tires_domain default_vehicle (constant_aero (6 / 10) (19 / 10)) default_points mesh ds di.
Proof.
  intros mesh ds di n eta s u k CV [B1 B2 B3 B4 B5 B6 B7 B8] HY HW HA HB HK. exists n, eta, s, u, k. split; [exact CV|].
  split; [split; cbn [default_vehicle cog_to_fa cog_to_ra track_front track_rear vehicle_mass Iz wheel_inertia]; lra|]. split; [lra|]. split; [pose proof (B5 rl); pose proof (B5 rr); lra|].
  split; [intros c; pose proof (patch_default s u c B8 ltac:(lra) (conj HY HW)); lra|]. split.
  - intro c. unfold tire_arguments, default_points. cbn [constant_aero snd]. pose proof (load_default s u c 4 B2 B3 HA HB) as L. cbv zeta in L. assert (dp "LFZO" * dp "FNOMIN" = 94166 / 10) as -> by (dflt; lra). apply C75_default. lra.
  - split; [lra|apply along_road_nz; assumption].
Qed.
Print Assumptions C76_default.

(** For every laptime simulation (configuration, tracks, history of calls) of a vehicle with these submodels: around every vector whose stages are in the domain there is room to move each variable, and there the gradient, the jacobian
    and the hessian of the Lagrangian (upper triangle) that IPOPT is given are the exact derivatives of the objective and the constraints that it is given. *)
Theorem C76_lap : forall jacobian hessian roots read_csv P tire_out aero_out tire_f aero_f (own : P -> dict R) jac hess js hs c first p cs l f v aero tire good,
  let R := race_model tire_out aero_out tire_f aero_f own jac hess js hs in let M := jax_model jacobian hessian R in let cfg := lc_sim c in let now := params_asked p (other_calls cs) in
  smooth_aero aero -> smooth_tires tire good -> lc_track c = Some first -> oracle_ok roots (cf_tns cfg) -> (1 <= cf_n cfg)%nat -> (forall q, exists v aero tire, realizes tire_out aero_out tire_f aero_f own q v aero tire) ->
  NoDup (cf_con cfg) -> incl (cf_con cfg) (map (fun nm => prefixed "vehicle" nm) veh_outputs) ->
  lap_history roots read_csv M c p cs = Ok l -> Forall lplain cs -> Forall (good_track read_csv) (LTrack first :: cs) -> reads read_csv (track_asked first cs) f ->
  Forall (fun c => 0 < sc_v c) (scales_asked (cf_scales cfg) (other_calls cs)) ->
  realizes tire_out aero_out tire_f aero_f own now v aero tire -> autodiff_model jacobian hessian R (tires_domain v aero good) (cf_con cfg) now ->
  let o := a_o (l_a l) in let N := num_dec (oc_op o) in
  exists tr pl pr, make_transcription roots (cf_tname cfg) (cf_tns cfg) = Ok tr /\ points_used (cf_n cfg) (cf_points cfg) pl /\ problem_of M (l_a l) = Ok pr /\ p_n pr = N /\
  let inside y := exists x, physical o lap_states lap_inputs (cf_con cfg) (Some (road_length f)) (scales_asked (cf_scales cfg) (other_calls cs)) y x /\
    stays_in o lap_states lap_inputs tr (cf_n cfg) pl (Some (road_length f)) (tires_domain v aero good) x in
  roomy N inside /\
  exists F G C J jr jc, prob_jacobianstructure pr = Ok (jr, jc) /\
    (forall x, List.length x = N -> prob_objective pr x = Ok (F x) /\ prob_gradient pr x = Ok (G x) /\ prob_constraints pr x = Ok (C x) /\ prob_jacobian pr x = Ok (J x)) /\
    is_gradient N F (fun x j => vget j (G x)) /\ jacobian_on inside N (num_con pr) C (fun x => tri jr jc (J x)) /\
    forall fac lam, List.length lam = num_con pr -> exists V hr hc, snd (prob_hessianstructure pr) = Ok (hr, hc) /\
      (forall x, List.length x = N -> snd (prob_hessian pr x lam fac) = Ok (V x)) /\
      hessian_on inside (fun i j => (i <= j)%nat) N (fun x => fac * F x + vdot lam (C x)) (fun x => tri hr hc (V x)).
Proof.
  intros jd hd roots read_csv P to ao tf af own jac hess js hs c first p cs l f v aero tire good R0 M cfg now SA ST EC HO Hn ALL NC IC HH HP HG HF HS RZ AD o N.
  pose proof (race_declared P to ao tf af own jac hess js hs (cf_con cfg) ALL NC IC) as DO. fold R0 in DO.
  destruct (lap_history_expand roots read_csv P M c first p cs l EC HO Hn ltac:(discriminate) HH HP HG) as (scs & fm & X & EH & PL & EF & EM & ML & _). specialize (ML f HF).
  assert (forall A (g : scall P -> option A) init, (forall s, g (SMeshScale s) = None) -> (forall bs, g (SBounds bs) = None) -> latest g init scs = latest g init (other_calls cs)) as LE.
  { intros A g init G1 G2. rewrite (latest_expand read_csv A g G1 G2 fm _ _ X init). reflexivity. }
  assert (scales_asked (cf_scales cfg) scs = scales_asked (cf_scales cfg) (other_calls cs)) as E2 by (apply LE; reflexivity).
  assert (params_asked p scs = params_asked p (other_calls cs)) as E1 by (apply LE; reflexivity).
  destruct (C76_equations P to ao tf af own jac hess js hs (cf_con cfg) (params_asked p scs) v aero tire good 0 SA ST) as (OD & TD & PF & DF); [rewrite E1; exact RZ|exact IC|].
  pose proof (C71_jax_derivatives jd hd roots P R0 (with_penalty cfg) (Some 1) p scs (l_a l) (tires_domain v aero good) HO Hn DO ltac:(cbn; tauto)) as T.
  cbn [with_penalty cf_n cf_points cf_tname cf_tns cf_con cf_scales cf_pen] in T. rewrite E1, E2, ML in T. rewrite E1 in TD. apply T; try assumption.
  - intros w Hw. injection Hw as <-. split; [repeat constructor; cbn; tauto|]. intros a Ha. cbn in Ha. destruct Ha as [<-|[]]. cbn. tauto.
  - left. discriminate.
Qed.
Print Assumptions C76_lap.
