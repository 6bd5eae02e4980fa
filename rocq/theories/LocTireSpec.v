(** Vocabulary: where the equations of the vehicle have derivatives, for any tires with forces that have second derivatives on an open set of loads and slips. *)
From Verif Require Import Base RBase UtilsModel VehModel VehSpec PacModel PacSpec PacProps DomSpec LocSpec LocRaceSpec.

(** tires whose forces have second derivatives wherever what goes into them has, as long as load and slips are good; there is room around good loads and slips (camber is 0 in the simple vehicle) *)
Definition smooth_tires (tire : corner -> tire_model) (good : corner -> R -> R -> R -> Prop) : Prop :=
  forall c D n Fz kappa alpha speed, roomy n D -> has_second D n Fz -> has_second D n kappa -> has_second D n alpha -> has_second D n speed ->
    roomy n (fun w => D w /\ good c (Fz w) (kappa w) (alpha w)) /\
    ((forall w, List.length w = n -> D w -> good c (Fz w) (kappa w) (alpha w)) ->
       has_second D n (fun w => fst (tire c (Fz w) (kappa w) (alpha w) (speed w) 0%R)) /\ has_second D n (fun w => snd (tire c (Fz w) (kappa w) (alpha w) (speed w) 0%R))).
(** as [race_domain], with these loads and slips at the wheels *)
Definition tires_domain (v : vparams) (aero : aero_model) (good : corner -> R -> R -> R -> Prop) (_ : R) (ds di : dict R) : Prop :=
  exists n eta s u k, car_values ds di n eta s u k /\ sane v /\ (vx s <> 0)%R /\ (wheel_speed s rl <> - wheel_speed s rr)%R /\ (forall c, patch_speed v s u c <> 0%R) /\
    (forall c, tire_arguments v (snd (aero (vx s) (vy s) (yaw_rate s)) * qdyn v s)%R s u c (fun Fz kappa alpha _ _ => good c Fz kappa alpha)) /\ on_road n eta (vx s) (vy s) k.
(** every wheel has the MF5.2 tire with these parameters: its forces are what [forward] returns *)
Definition mf52_tires (opt_mode : bool) (params : dict R) (tire : corner -> tire_model) : Prop :=
  forall c Fz kappa alpha vx gamma inputs out fx fy, mf_inputs inputs Fz kappa alpha vx gamma -> mf_forward opt_mode params inputs = Ok out ->
    dget "Fx" out = Some (Some fx) -> dget "Fy" out = Some (Some fy) -> tire c Fz kappa alpha vx gamma = (fx, fy).
