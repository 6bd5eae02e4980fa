(** Lemmas for C76: the layers of the vehicle and its domain, for any smooth tires. *)
From Coq Require Import Lra Lia.
From Verif Require Import Base RBase TreeModel UtilsModel IoModel AlgModel AlgSpec NlpModel OcpModel BuildModel BuildSpec VehModel VehSpec VehProps KinModel TireModel RaceModel RaceProofs RaceSpec RaceProofs2 DomSpec DomProofs
  JaxSpec LocSpec LocJaxSpec LocProofs LocProps LocCalc LocRaceSpec LocRaceProofs LocRaceProofs2 LocTireSpec.
Import ListNotations.
Open Scope R_scope.

Section Layers.
Variables (D : list R -> Prop) (n : nat) (v : vparams) (aero : aero_model) (tire : corner -> tire_model) (good : corner -> R -> R -> R -> Prop).
Hypothesis smooth : smooth_aero aero.
Hypothesis tires : smooth_tires tire good.
Hypothesis room : roomy n D.
Hypothesis moving : forall w, List.length w = n -> D w -> vget 3 w <> 0.
Hypothesis rear : forall w, List.length w = n -> D w -> vget 8 w + vget 9 w <> 0.
Hypothesis patch : forall w c, List.length w = n -> D w -> patch_speed v (row_s w) (row_u w) c <> 0.
Hypothesis points : forall w c, List.length w = n -> D w -> good c (f_wheel_load v aero (row_s w) (row_u w) c) (f_kappa v (row_s w) c) (f_alpha v (row_s w) (row_u w) c * mirror c).
Lemma tw_slip : forall c, tw D n (fun w => f_alpha v (row_s w) (row_u w) c * mirror c).
Proof using patch. clear tires room points smooth moving rear. intro c. apply (tw_mult D n (fun w => f_alpha v (row_s w) (row_u w) c) (fun _ => mirror c)); [apply (tw_alpha D n v patch)|apply tw_const]. Qed.
Lemma tw_velo : forall c, tw D n (fun w => X (f_vel_wheel v (row_s w) (row_u w) c)).
Proof using. clear. intro c. apply (tw_eq D n (fun w => patch_speed v (row_s w) (row_u w) c)); [intro w; now rewrite wheel_X|apply tw_patch]. Qed.
Lemma tw_force' : forall c, tw D n (fun w => fst (f_tire v aero tire (row_s w) (row_u w) c)) /\ tw D n (fun w => snd (f_tire v aero tire (row_s w) (row_u w) c)).
Proof using smooth tires room moving patch points.
  clear rear. intro c. destruct (tires c D n _ _ _ _ room (tw_load D n v aero smooth c) (tw_kappa D n v moving c) (tw_slip c) (tw_velo c)) as [_ H]. destruct (H (fun w => points w c)) as [A B].
  unfold f_tire. rewrite Rmult_0_l. split; assumption.
Qed.
Lemma tw_body' : forall c, tw D n (fun w => X (f_force_body v aero tire (row_s w) (row_u w) c)) /\ tw D n (fun w => Y (f_force_body v aero tire (row_s w) (row_u w) c)).
Proof using smooth tires room moving patch points.
  clear rear. intro c. destruct (tw_force' c) as [A B]. pose proof (tw_load D n v aero smooth c) as L. unfold f_force_body, rotate_z, f_force_wheel, X, Y, Z. cbn [fst snd].
  destruct c; unfold f_wheel_angle, f_steer; cbn [row_u steer]; split; tw.
Qed.
Lemma tw_ax' : tw D n (fun w => f_ax v aero tire (row_s w) (row_u w)) /\ tw D n (fun w => f_ay v aero tire (row_s w) (row_u w)).
Proof using smooth tires room moving patch points.
  clear rear. destruct (tw_body' fl) as [A1 B1]. destruct (tw_body' fr) as [A2 B2]. destruct (tw_body' rl) as [A3 B3]. destruct (tw_body' rr) as [A4 B4]. destruct (tw_aero D n aero smooth) as [CX CZ].
  unfold f_ax, f_ay, vscale, f_total_force, sum4, vplus, f_drag, f_aero, X, Y in *. cbn [fst snd row_s vx vy] in *. split; tw.
Qed.
Lemma tw_yaw' : tw D n (fun w => f_yaw_accel v aero tire (row_s w) (row_u w)).
Proof using smooth tires room moving patch points.
  clear rear. destruct (tw_body' fl) as [A1 B1]. destruct (tw_body' fr) as [A2 B2]. destruct (tw_body' rl) as [A3 B3]. destruct (tw_body' rr) as [A4 B4].
  unfold f_yaw_accel, f_total_moment, sum4, vplus, f_moment_body, cross, f_pos, X, Y, Z in *. cbn [fst snd] in *. tw.
Qed.
Lemma tw_wheel' : forall c, tw D n (fun w => f_wheel_speed_dot v aero tire (row_s w) (row_u w) c).
Proof using smooth tires room moving patch points rear.
  intro c. destruct (tw_force' c) as [A _]. pose proof (tw_drive_rl D n v rear) as DR. unfold f_wheel_speed_dot, f_force_wheel, f_brake_torque, f_total_brake, X. cbn [fst snd row_u brake].
  destruct c; unfold f_drive_torque, f_delta_torque; cbn [row_s wheel_speed]; tw.
Qed.
End Layers.

(** ** the domain in terms of a row of values *)
Definition base_guards (v : vparams) : list (list R -> R) :=
  (fun _ => cog_to_fa v + cog_to_ra v) :: (fun _ => track_front v) :: (fun _ => track_rear v) :: (fun _ => vehicle_mass v) :: (fun _ => Iz v) :: (fun _ => wheel_inertia v) ::
  (fun w => vget 3 w) :: (fun w => vget 8 w + vget 9 w) :: (fun w => 1 - vget 1 w * vget 15 w) :: (fun w => vget 3 w * cos (vget 2 w) - vget 4 w * sin (vget 2 w)) ::
  map (fun c w => patch_speed v (row_s w) (row_u w) c) corners.
Definition base_domain (v : vparams) (w : list R) : Prop := Forall (fun f => f w <> 0) (base_guards v).
Lemma base_roomy : forall v n, roomy n (base_domain v).
Proof.
  intros v n. apply roomy_all. apply Forall_forall. intros f Hf D. revert f Hf. rewrite <- Forall_forall. unfold base_guards. do 10 (apply Forall_cons; [tw|]). apply Forall_forall. intros f Hf. apply in_map_iff in Hf. destruct Hf as (c & <- & _).
  apply tw_patch.
Qed.
Record base_facts (v : vparams) (w : list R) : Prop := {
  bf_sane : sane v; bf_moving : vget 3 w <> 0; bf_rear : vget 8 w + vget 9 w <> 0; bf_bend : 1 - vget 1 w * vget 15 w <> 0; bf_along : vget 3 w * cos (vget 2 w) - vget 4 w * sin (vget 2 w) <> 0;
  bf_patch : forall c, patch_speed v (row_s w) (row_u w) c <> 0 }.
Lemma base_iff : forall v w, base_domain v w <-> base_facts v w.
Proof.
  intros v w. unfold base_domain, base_guards. split.
  - intro A. do 10 (apply Forall_cons_iff in A; destruct A as [? A]). rewrite Forall_forall in A. constructor; try assumption; [constructor; assumption|]. intros c. exact (A _ (in_map _ _ _ (all_corners c))).
  - intros [[] M RE B AL P]. do 10 (apply Forall_cons; [assumption || (intro; lra)|]). apply Forall_forall; intros f Hf; apply in_map_iff in Hf; destruct Hf as (c & <- & _). apply P.
Qed.
Section Row.
Variables (v : vparams) (aero : aero_model) (tire : corner -> tire_model) (good : corner -> R -> R -> R -> Prop).
Hypothesis smooth : smooth_aero aero.
Hypothesis tires : smooth_tires tire good.
Definition wheel_good (c : corner) (w : list R) : Prop := good c (f_wheel_load v aero (row_s w) (row_u w) c) (f_kappa v (row_s w) c) (f_alpha v (row_s w) (row_u w) c * mirror c).
Definition tire_row (w : list R) : Prop := base_domain v w /\ forall c, wheel_good c w.
Lemma wheel_roomy : forall n (D : list R -> Prop) c, (forall w, List.length w = n -> D w -> base_domain v w) -> roomy n D -> roomy n (fun w => D w /\ wheel_good c w).
Proof using smooth tires.
  intros n D c S0 RM. assert (forall w, List.length w = n -> D w -> base_facts v w) as BF by (intros w L H; apply base_iff; auto).
  destruct (tires c D n _ _ _ _ RM (tw_load D n v aero smooth c) (tw_kappa D n v (fun w L H => bf_moving _ _ (BF w L H)) c) (tw_slip D n v (fun w c L H => bf_patch _ _ (BF w L H) c) c) (tw_velo D n v c)) as [H _]. exact H.
Qed.
Lemma tire_row_roomy : forall n, roomy n tire_row.
Proof using smooth tires.
  intro n. pose proof (wheel_roomy n _ fl (fun w _ H => H) (base_roomy v n)) as A.
  assert (roomy n (fun w => (base_domain v w /\ wheel_good fl w) /\ wheel_good fr w)) as B by (apply wheel_roomy; [tauto|exact A]).
  assert (roomy n (fun w => ((base_domain v w /\ wheel_good fl w) /\ wheel_good fr w) /\ wheel_good rl w)) as C by (apply wheel_roomy; [tauto|exact B]).
  apply (roomy_sub (fun w => (((base_domain v w /\ wheel_good fl w) /\ wheel_good fr w) /\ wheel_good rl w) /\ wheel_good rr w)); [|apply wheel_roomy; [tauto|exact C]].
  intros w _. unfold tire_row. split; [intros [H K]; repeat split; try exact H; apply K|]. intros ((((H & K1) & K2) & K3) & K4). split; [exact H|]. intros []; assumption.
Qed.
End Row.
