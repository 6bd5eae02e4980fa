(** C72: the derivatives given to IPOPT by the laptime simulation of the vehicle (Perantoni's tires, aero models with second derivatives, automatic differentiation) are exact wherever the equations are defined. *)
From Verif Require Import Base RBase TreeModel UtilsModel UtilsProofs IoModel CollocModel CollocProofs CollocProps MeshModel MeshProps OcpModel OcpSpec NlpModel NlpSpec AlgModel AlgSpec AlgProofs AlgProps ConvModel ConvSpec
  CyclicSpec BoundModel BoundSpec ScaleModel ScaleSpec ObjSpec BuildModel BuildSpec BuildProofs2 BuildProps3 TrackModel TrackSpec VehModel VehSpec VehProps KinModel TireModel LapModel LapSpec LapProofs LapProps LapProps2 LapProps4 RaceModel RaceProofs RaceSpec RaceProofs2 RaceProofs5 RaceProps2 RaceProps3
  DomSpec DomProofs DomProofs2 JaxModel JaxSpec JaxProofs JaxProps2 LocSpec LocJaxSpec LocProofs LocProofs3 LocProps LocProps2 LocCalc LocRaceSpec LocRaceProofs LocRaceProofs2 LocRaceProofs3.
Import ListNotations.
Open Scope R_scope.

(** The equations of the vehicle with Perantoni's tires and any aero model with second derivatives: the domain is open, and there all derivatives and the outputs used have second derivatives. *)
Theorem C72_equations : forall P tire_out aero_out tire_f aero_f (own : P -> dict R) jac hess js hs con p v t aero mesh0, smooth_aero aero ->
  realizes tire_out aero_out tire_f aero_f own p v aero (perantoni_tires t) -> incl con (map (fun nm => prefixed "vehicle" nm) veh_outputs) ->
  let M := race_model tire_out aero_out tire_f aero_f own jac hess js hs in
  open_domain M (race_domain v t aero) /\ twice_differentiable_on M (race_domain v t aero) con p /\ position_free M /\ (forall m ds di, race_domain v t aero m ds di -> race_domain v t aero mesh0 ds di).
Proof.
  intros P to ao tf af own jac hess js hs con p v t aero mesh0 SA RZ IC M. split; [now apply race_open|]. split; [exact (race_smooth to ao tf af own jac hess js hs p v t aero SA RZ con IC)|].
  split; [intros q ds di m m'; reflexivity|]. intros m ds di H. exact H.
Qed.
Print Assumptions C72_equations.

Lemma race_declared : forall P tire_out aero_out tire_f aero_f (own : P -> dict R) jac hess js hs con, (forall q, exists v aero tire, realizes tire_out aero_out tire_f aero_f own q v aero tire) ->
  NoDup con -> incl con (map (fun nm => prefixed "vehicle" nm) veh_outputs) -> declared_ok (race_model tire_out aero_out tire_f aero_f own jac hess js hs) con.
Proof.
  intros P to ao tf af own jac hess js hs con RZ NC IC. destruct (race_outputs to ao) as (_ & O2 & O3). constructor.
  - split; [cbn; repeat constructor; cbn; intuition discriminate|]. split; [cbn; repeat constructor; cbn; intuition discriminate|]. split; [exact NC|]. split; [cbn; repeat constructor; cbn; intuition discriminate|]. split.
    + intros k Hk. apply IC, in_map_iff in Hk. destruct Hk as (nm & <- & Hn). change (In (prefixed "vehicle" nm) (outputs_of (race_mio to ao))). cbn [outputs_of race_mio d_outputs app flat_map]. apply in_or_app. left. apply in_map. cbn [veh_mio outputs_of d_outputs]. apply in_or_app. now left.
    + change (incl (residuals_of (race_mio to ao)) (outputs_of (race_mio to ao))). rewrite O3. exact O2.
  - intros nm [H|H]; cbn in H; repeat (destruct H as [<-|H]; [reflexivity|]); contradiction.
  - discriminate.
  - intros p ds di mesh Hs Hi. destruct (ten_keys ds Hs) as (t & n & eta & s & ->). destruct (seven_keys di Hi) as (u & k & h & ->). destruct (RZ p) as (v & aero & tire & R).
    destruct (race_sem to ao tf af own p v aero tire R t n eta s u k h) as (out & E & I & _). eexists. eexists. split; [exact E|]. split; [intros a Ha; exact Ha|exact I].
Qed.

(** For every laptime simulation (configuration, tracks, history of calls) of a vehicle with these submodels: around every vector whose stages are in the domain there is room to move each variable, and there the gradient, the jacobian
    and the hessian of the Lagrangian (upper triangle) that IPOPT is given are the exact derivatives of the objective and the constraints that it is given. *)
Theorem C72_lap : forall jacobian hessian roots read_csv P tire_out aero_out tire_f aero_f (own : P -> dict R) jac hess js hs c first p cs l f v t aero,
  let R := race_model tire_out aero_out tire_f aero_f own jac hess js hs in let M := jax_model jacobian hessian R in let cfg := lc_sim c in let now := params_asked p (other_calls cs) in
  smooth_aero aero -> lc_track c = Some first -> oracle_ok roots (cf_tns cfg) -> (1 <= cf_n cfg)%nat -> (forall q, exists v aero tire, realizes tire_out aero_out tire_f aero_f own q v aero tire) ->
  NoDup (cf_con cfg) -> incl (cf_con cfg) (map (fun nm => prefixed "vehicle" nm) veh_outputs) ->
  lap_history roots read_csv M c p cs = Ok l -> Forall lplain cs -> Forall (good_track read_csv) (LTrack first :: cs) -> reads read_csv (track_asked first cs) f ->
  Forall (fun c => 0 < sc_v c) (scales_asked (cf_scales cfg) (other_calls cs)) ->
  realizes tire_out aero_out tire_f aero_f own now v aero (perantoni_tires t) -> autodiff_model jacobian hessian R (race_domain v t aero) (cf_con cfg) now ->
  let o := a_o (l_a l) in let N := num_dec (oc_op o) in
  exists tr pl pr, make_transcription roots (cf_tname cfg) (cf_tns cfg) = Ok tr /\ points_used (cf_n cfg) (cf_points cfg) pl /\ problem_of M (l_a l) = Ok pr /\ p_n pr = N /\
  let inside y := exists x, physical o lap_states lap_inputs (cf_con cfg) (Some (road_length f)) (scales_asked (cf_scales cfg) (other_calls cs)) y x /\
    stays_in o lap_states lap_inputs tr (cf_n cfg) pl (Some (road_length f)) (race_domain v t aero) x in
  roomy N inside /\
  exists F G C J jr jc, prob_jacobianstructure pr = Ok (jr, jc) /\
    (forall x, List.length x = N -> prob_objective pr x = Ok (F x) /\ prob_gradient pr x = Ok (G x) /\ prob_constraints pr x = Ok (C x) /\ prob_jacobian pr x = Ok (J x)) /\
    is_gradient N F (fun x j => vget j (G x)) /\ jacobian_on inside N (num_con pr) C (fun x => tri jr jc (J x)) /\
    forall fac lam, List.length lam = num_con pr -> exists V hr hc, snd (prob_hessianstructure pr) = Ok (hr, hc) /\
      (forall x, List.length x = N -> snd (prob_hessian pr x lam fac) = Ok (V x)) /\
      hessian_on inside (fun i j => (i <= j)%nat) N (fun x => fac * F x + vdot lam (C x)) (fun x => tri hr hc (V x)).
Proof.
  intros jd hd roots read_csv P to ao tf af own jac hess js hs c first p cs l f v t aero R0 M cfg now SA EC HO Hn ALL NC IC HH HP HG HF HS RZ AD o N.
  pose proof (race_declared P to ao tf af own jac hess js hs (cf_con cfg) ALL NC IC) as DO. fold R0 in DO.
  destruct (lap_history_expand roots read_csv P M c first p cs l EC HO Hn ltac:(discriminate) HH HP HG) as (scs & fm & X & EH & PL & EF & EM & ML & _). specialize (ML f HF).
  assert (forall A (g : scall P -> option A) init, (forall s, g (SMeshScale s) = None) -> (forall bs, g (SBounds bs) = None) -> latest g init scs = latest g init (other_calls cs)) as LE.
  { intros A g init G1 G2. rewrite (latest_expand read_csv A g G1 G2 fm _ _ X init). reflexivity. }
  assert (scales_asked (cf_scales cfg) scs = scales_asked (cf_scales cfg) (other_calls cs)) as E2 by (apply LE; reflexivity).
  assert (params_asked p scs = params_asked p (other_calls cs)) as E1 by (apply LE; reflexivity).
  destruct (C72_equations P to ao tf af own jac hess js hs (cf_con cfg) (params_asked p scs) v t aero 0 SA) as (OD & TD & PF & DF); [rewrite E1; exact RZ|exact IC|].
  pose proof (C71_jax_derivatives jd hd roots P R0 (with_penalty cfg) (Some 1) p scs (l_a l) (race_domain v t aero) HO Hn DO ltac:(cbn; tauto)) as T.
  cbn [with_penalty cf_n cf_points cf_tname cf_tns cf_con cf_scales cf_pen] in T. rewrite E1, E2, ML in T. rewrite E1 in TD. apply T; try assumption.
  - intros w Hw. injection Hw as <-. split; [repeat constructor; cbn; tauto|]. intros a Ha. cbn in Ha. destruct Ha as [<-|[]]. cbn. tauto.
  - left. discriminate.
Qed.
Print Assumptions C72_lap.
