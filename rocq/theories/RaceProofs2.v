(** Lemmas for C54: the vehicle on a track returns what the kinematics and the mechanics say. *)
From Coq Require Import FunctionalExtensionality.
From Verif Require Import Base RBase TreeModel UtilsModel UtilsProofs UtilsProofs2 IoModel IoProofs AlgModel AlgSpec NlpModel OcpModel BuildModel BuildSpec VehModel VehSpec VehProps KinModel LapModel LapSpec RaceModel RaceProofs RaceSpec.

Lemma own_read : forall d v, own_params d v -> read_params d = Ok v.
Proof.
  intros d v (E1 & E2 & E3 & E4 & E5 & E6 & E7 & E8 & E9 & E10 & E11 & E12 & E13 & E14 & E15 & E16 & E17). unfold read_params, lookup_err.
  rewrite E1, E2, E3, E4, E5, E6, E7, E8, E9, E10, E11, E12, E13, E14, E15, E16, E17. destruct v; reflexivity.
Qed.

Definition st10 (t n eta : R) (s : vstates) : dict R := ("time", t) :: ("n", n) :: ("eta", eta) :: veh_st s.
Definition in7 (u : vinputs) (k h : R) : dict R :=
  [("throttle", throttle u); ("brake", brake u); ("steer", steer u); ("ax", ax_in u); ("ay", ay_in u); ("track_curvature", k); ("track_heading", h)].
Definition road_speed (n eta k : R) (s : vstates) : R := (vx s * cos eta - vy s * sin eta) / (1 - n * k).
Definition dot10 (n eta k : R) (s : vstates) (r : vreturn) : dict R :=
  let sp := road_speed n eta k s in
  ("time", 1 / sp) :: ("n", (vx s * sin eta + vy s * cos eta) / sp) :: ("eta", (yaw_rate s - k * sp) / sp) :: map (fun kv => (fst kv, snd kv * (1 / sp))) (veh_dot r).

Section Sem.
Context {P : Type}.
Variables (tire_out aero_out : list string) (tire_f : P -> corner -> dict R -> result (dict R)) (aero_f : P -> dict R -> result (dict R)) (own : P -> dict R).
Variables (q : P) (v : vparams) (aero : aero_model) (tire : corner -> tire_model).
Hypothesis RZ : realizes tire_out aero_out tire_f aero_f own q v aero tire.
Lemma race_sem : forall t n eta s u k h, let r := vehicle_forward v aero tire s u in
  exists out, race_forward tire_out aero_out tire_f aero_f own q (st10 t n eta s) (in7 u k h) = Ok (dot10 n eta k s r, out) /\ incl (outputs_of (race_mio tire_out aero_out)) (keys out) /\
    (forall nm w, dget nm (veh_out r) = Some w -> dget (prefixed "vehicle" nm) out = Some w).
Proof using RZ.
  intros t n eta s u k h r. destruct RZ as [H1 H2 H3]. destruct (veh_sem tire_out aero_out tire_f aero_f own q v aero tire (own_read _ _ H1) H2 H3 s u) as (vo & EV & NV & IV & KV). fold r in EV, KV.
  unfold race_forward. change (pick veh_inputs (in7 u k h)) with (@Ok (dict R) (veh_in u)). cbn [bind]. change (pick veh_states (st10 t n eta s)) with (@Ok (dict R) (veh_st s)). cbn [bind]. cbv zeta. rewrite EV. cbn [fmap bind snd].
  set (b0 := clear_buffer (sm_of (race_mio tire_out aero_out)) : buffer R).
  assert (call (race_mio tire_out aero_out) b0 "vehicle" [("states", veh_st s); ("inputs", veh_in u)] (Ok vo) = Ok (dset "vehicle" (Some vo) b0, vo)) as ->.
  { unfold call. rewrite proper_call; [reflexivity|reflexivity| |reflexivity]. exists true, veh_inputs, veh_states. eexists. split; [reflexivity|]. split.
    - eexists. split; [reflexivity|]. intros a Ha. exact Ha.
    - intros _. eexists. split; [reflexivity|]. intros a Ha. exact Ha. }
  cbn [bind fst snd]. change (pick kin_states (st10 t n eta s)) with (@Ok (dict R) [("time", t); ("n", n); ("eta", eta)]). cbn [bind]. change (pick ["vx"; "vy"; "yaw_rate"] (veh_st s)) with (@Ok (dict R) [("vx", vx s); ("vy", vy s); ("yaw_rate", yaw_rate s)]). cbn [bind].
  change (pick ["track_curvature"; "track_heading"] (in7 u k h)) with (@Ok (dict R) [("track_curvature", k); ("track_heading", h)]). cbn [bind app].
  set (ks := [("time", t); ("n", n); ("eta", eta)]). set (ki := [("track_curvature", k); ("track_heading", h); ("vx", vx s); ("vy", vy s); ("yaw_rate", yaw_rate s)]).
  set (sp := road_speed n eta k s).
  change (kin_forward ks ki) with (@Ok (dict R * dict R) ([("time", 1 / sp); ("n", (vx s * sin eta + vy s * cos eta) / sp); ("eta", (yaw_rate s - k * sp) / sp)], [("yaw_angle", eta + h); ("curvature", k)])). cbn [fmap bind snd fst].
  set (ko := [("yaw_angle", eta + h); ("curvature", k)]).
  match goal with |- context [call ?x1 ?x2 ?x3 ?x4 ?x5] => assert (call x1 x2 x3 x4 x5 = Ok (dset "kinematics" (Some ko) (dset "vehicle" (Some vo) b0), ko)) as -> end.
  { unfold call. rewrite proper_call; [reflexivity|reflexivity| |reflexivity]. exists true, kin_inputs, kin_states. eexists. split; [reflexivity|]. split.
    - eexists. split; [reflexivity|]. intros a Ha. cbn in *. tauto.
    - intros _. eexists. split; [reflexivity|]. intros a Ha. exact Ha. }
  cbn [bind fst snd]. change (lookup_err "time" [("time", 1 / sp); ("n", (vx s * sin eta + vy s * cos eta) / sp); ("eta", (yaw_rate s - k * sp) / sp)]) with (Ok (1 / sp)). cbn [bind].
  change (dset "kinematics" (Some ko) (dset "vehicle" (Some vo) b0)) with [("vehicle", Some vo); ("kinematics", Some ko)].
  destruct (finish_ok (race_mio tire_out aero_out) [("vehicle", Some vo); ("kinematics", Some ko)] []) as (out & EO & NO & IO & _ & KO).
  - repeat constructor; cbn; intuition discriminate.
  - repeat constructor.
  - constructor.
  - constructor.
  - intros m o [E|[E|[]]]; injection E as <- <-; eexists; (split; [reflexivity|]); [exact NV|]. repeat constructor; cbn; intuition discriminate.
  - intros a Ha. destruct Ha.
  - intros m sub [E|[E|[]]]; injection E as <- <-; eexists; (split; [reflexivity|]); [exact IV|]. intros a Ha. exact Ha.
  - exists out. rewrite EO. cbn [bind]. split; [reflexivity|]. split; [exact IO|]. intros nm w Hw. specialize (KV nm w Hw). rewrite (KO "vehicle" vo nm eq_refl); [exact KV|]. apply dget_some_iff. eauto.
Qed.
End Sem.

(** ** dictionaries with the names of the states and inputs *)
Lemma ten_keys : forall d : dict R, keys d = kin_states ++ veh_states -> exists t n eta s, d = st10 t n eta s.
Proof.
  intros [|[k1 a1] [|[k2 a2] [|[k3 a3] [|[k4 a4] [|[k5 a5] [|[k6 a6] [|[k7 a7] [|[k8 a8] [|[k9 a9] [|[k10 a10] [|? ?]]]]]]]]]]] E; try discriminate. cbn in E. injection E as -> -> -> -> -> -> -> -> -> ->.
  exists a1, a2, a3, {| vx := a4; vy := a5; yaw_rate := a6; wheel_speed := fun c => match c with fl => a7 | fr => a8 | rl => a9 | rr => a10 end |}. reflexivity.
Qed.
Lemma seven_keys : forall d : dict R, keys d = veh_inputs ++ ["track_curvature"; "track_heading"] -> exists u k h, d = in7 u k h.
Proof.
  intros [|[k1 a1] [|[k2 a2] [|[k3 a3] [|[k4 a4] [|[k5 a5] [|[k6 a6] [|[k7 a7] [|? ?]]]]]]]] E; try discriminate. cbn in E. injection E as -> -> -> -> -> -> ->.
  exists {| throttle := a1; brake := a2; steer := a3; ax_in := a4; ay_in := a5 |}, a6, a7. reflexivity.
Qed.

Lemma race_outputs : forall tire_out aero_out, incl usual_outputs (outputs_of (race_mio tire_out aero_out)) /\ incl ["vehicle.res_ax"; "vehicle.res_ay"] (outputs_of (race_mio tire_out aero_out)) /\
  residuals_of (race_mio tire_out aero_out) = ["vehicle.res_ax"; "vehicle.res_ay"].
Proof.
  intros to ao. assert (forall k, In k veh_outputs -> In (prefixed "vehicle" k) (outputs_of (race_mio to ao))) as H.
  { intros k Hk. cbn [outputs_of race_mio d_outputs app flat_map]. apply in_or_app. left. apply in_map. cbn [veh_mio outputs_of d_outputs]. apply in_or_app. now left. }
  split; [|split; [|reflexivity]].
  - intros k Hk. cbn in Hk. repeat (destruct Hk as [<-|Hk]; [match goal with |- In ?s _ => apply (H (String.substring 8 (String.length s) s)) end; cbn; tauto|]). contradiction.
  - intros k Hk. cbn in Hk. repeat (destruct Hk as [<-|Hk]; [match goal with |- In ?s _ => apply (H (String.substring 8 (String.length s) s)) end; cbn; tauto|]). contradiction.
Qed.

Lemma race_model_ok : forall P tire_out aero_out (tire_f : P -> corner -> dict R -> result (dict R)) aero_f own jac hess js hs, shapes jac hess js hs ->
  (forall q, exists v aero tire, realizes tire_out aero_out tire_f aero_f own q v aero tire) -> model_ok (race_model tire_out aero_out tire_f aero_f own jac hess js hs) usual_outputs.
Proof.
  intros P to ao tf af own jac hess js hs (S1 & S2 & S3 & S4) RZ. destruct (race_outputs to ao) as (O1 & O2 & O3).
  constructor.
  - split; [reflexivity|]. split; [|split].
    + intros g Hg. cbn in Hg. repeat (destruct Hg as [<-|Hg]; [cbn; repeat constructor; cbn; intuition discriminate|]). contradiction.
    + exact O1.
    + change (incl (residuals_of (race_mio to ao)) (outputs_of (race_mio to ao))). rewrite O3. exact O2.
  - intros nm [H|H]; cbn in H; repeat (destruct H as [<-|H]; [reflexivity|]); contradiction.
  - intros p mesh ds di Hs Hi. destruct (ten_keys ds Hs) as (t & n & eta & s & ->). destruct (seven_keys di Hi) as (u & k & h & ->). destruct (RZ p) as (v & aero & tire & R).
    destruct (race_sem to ao tf af own p v aero tire R t n eta s u k h) as (out & E & I & _). eexists. eexists. split; [exact E|]. split; [intros a Ha; exact Ha|exact I].
  - exact S1.
  - exact S2.
  - exact S3.
  - exact S4.
Qed.
