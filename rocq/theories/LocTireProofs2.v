(** Lemmas for C76: the vehicle on its track with any smooth tires. *)
From Coq Require Import Lra Lia.
From Verif Require Import Base RBase TreeModel UtilsModel IoModel AlgModel AlgSpec NlpModel OcpModel BuildModel BuildSpec VehModel VehSpec VehProps KinModel TireModel RaceModel RaceProofs RaceSpec RaceProofs2 DomSpec DomProofs
  JaxSpec LocSpec LocJaxSpec LocProofs LocProps LocCalc LocRaceSpec LocRaceProofs LocRaceProofs2 LocTireSpec LocTireProofs.
Import ListNotations.
Open Scope R_scope.

Section Within.
Context {P : Type}.
Variables (tire_out aero_out : list string) (tire_f : P -> corner -> dict R -> result (dict R)) (aero_f : P -> dict R -> result (dict R)) (own : P -> dict R)
  (jac : list string -> list R -> R -> P -> list R) (hess : list string -> list R -> list R -> R -> P -> list R) (js hs : list string -> list nat * list nat).
Let M := race_model tire_out aero_out tire_f aero_f own jac hess js hs.
Lemma within_tires : forall v aero good mesh w, List.length w = 17%nat -> (within M (tires_domain v aero good) mesh w <-> tire_row v aero good w).
Proof using.
  intros v aero good mesh w L. unfold within. pose proof (row_states tire_out aero_out tire_f aero_f own jac hess js hs w L) as ER. pose proof (proj2 (row_inputs tire_out aero_out tire_f aero_f own jac hess js hs w L)) as EI. fold M in ER, EI. rewrite ER, EI. clear ER EI. unfold tire_row. rewrite base_iff. unfold tires_domain.
  assert (sane v -> forall c, (wheel_good v aero good c w <-> tire_arguments v (snd (aero (vget 3 w) (vget 4 w) (vget 5 w)) * qdyn v (row_s w)) (row_s w) (row_u w) c (fun Fz kappa alpha _ _ => good c Fz kappa alpha))) as WG.
  { intros SA c. unfold wheel_good, tire_arguments. rewrite load_static by exact SA. cbn [row_s vx vy yaw_rate]. unfold f_alpha. rewrite wheel_X, wheel_Y. unfold f_kappa, mirror.
    assert (- (1 - rolling_radius v * wheel_speed (row_s w) c / vx (row_s w)) = rolling_radius v * wheel_speed (row_s w) c / vx (row_s w) - 1) as -> by ring. reflexivity. }
  split.
  - intros (n & eta & s & u & k & C & SA & MV & RE & PA & TI & RO). destruct C as (C1 & C2 & C3 & C4 & C5 & C6 & C7 & C8 & C9 & C10 & C11 & C12 & C13 & C14 & C15). unfold st10, in7 in *. cbn in C1, C2, C3, C4, C5, C6, C7, C8, C9, C10, C11, C12, C13, C14, C15.
    apply some_inj in C1, C2, C3, C4, C5, C6, C7, C8, C9, C10, C11, C12, C13, C14, C15. destruct RO as [RO1 RO2]. rewrite <- C3, <- C4 in *. subst n eta k.
    assert (forall c, patch_speed v s u c = patch_speed v (row_s w) (row_u w) c) as EP by (intros []; unfold patch_speed, along, wheel_angle, point_vx, point_vy, px, py; cbn [row_s row_u vx vy yaw_rate steer]; congruence).
    split.
    + constructor; try assumption.
      * rewrite C8, C9. lra.
      * intro E. apply RO1. lra.
      * intro E. apply RO2. lra.
      * intro c. rewrite <- EP. apply PA.
    + intro c. apply (WG SA). specialize (TI c). unfold tire_arguments in *. rewrite EP, <- C5 in TI. 
      assert (forall c, across (wheel_angle v u c) (point_vx v s c) (point_vy v s c) = across (wheel_angle v (row_u w) c) (point_vx v (row_s w) c) (point_vy v (row_s w) c)) as EA by (intros []; unfold across, wheel_angle, point_vx, point_vy, px, py; cbn [row_s row_u vx vy yaw_rate steer]; congruence).
      rewrite EA in TI. assert (qdyn v s = qdyn v (row_s w)) as EQ by (unfold qdyn; cbn [row_s vx vy]; congruence). rewrite EQ in TI.
      assert (forall l, static_load v l u c = static_load v l (row_u w) c) as ES by (intro l; destruct c; unfold static_load; cbn [row_u ax_in ay_in]; congruence). rewrite ES in TI.
      assert (wheel_speed s c = wheel_speed (row_s w) c) as EW by (destruct c; cbn [row_s wheel_speed]; congruence). rewrite EW in TI. rewrite <- C3 in TI. exact TI.
  - intros [[SA MV RE BE AL PA] TI]. exists (vget 1 w), (vget 2 w), (row_s w), (row_u w), (vget 15 w). split; [unfold car_values; cbn; repeat split|].
    split; [exact SA|]. split; [exact MV|]. split; [cbn [row_s wheel_speed]; intro E; apply RE; lra|]. split; [exact PA|]. split; [intro c; apply (WG SA); apply TI|]. split; cbn [row_s vx vy]; intro E; [apply BE|apply AL]; lra.
Qed.
Lemma tires_open : forall v aero tire good, smooth_aero aero -> smooth_tires tire good -> open_domain M (tires_domain v aero good).
Proof using.
  intros v aero tire good SA ST mesh. change (List.length (m_states M) + List.length (m_inputs M))%nat with 17%nat. apply (roomy_sub (tire_row v aero good)); [intros w L; now apply within_tires|]. now apply (tire_row_roomy v aero tire).
Qed.
End Within.

Section Race.
Context {P : Type}.
Variables (tire_out aero_out : list string) (tire_f : P -> corner -> dict R -> result (dict R)) (aero_f : P -> dict R -> result (dict R)) (own : P -> dict R)
  (jac : list string -> list R -> R -> P -> list R) (hess : list string -> list R -> list R -> R -> P -> list R) (js hs : list string -> list nat * list nat).
Variables (q : P) (v : vparams) (aero : aero_model) (tire : corner -> tire_model) (good : corner -> R -> R -> R -> Prop).
Let M := race_model tire_out aero_out tire_f aero_f own jac hess js hs.
Hypothesis smooth : smooth_aero aero.
Hypothesis tires : smooth_tires tire good.
Hypothesis RZ : realizes tire_out aero_out tire_f aero_f own q v aero tire.
Let D := tire_row v aero good.
Let ret w := vehicle_forward v aero tire (row_s w) (row_u w).

Lemma row_called : forall mesh w, List.length w = 17%nat -> exists out, called M q mesh w = Ok (dot10 (vget 1 w) (vget 2 w) (vget 15 w) (row_s w) (ret w), out) /\
  forall nm x, dget nm (veh_out (ret w)) = Some x -> dget (prefixed "vehicle" nm) out = Some x.
Proof using RZ.
  intros mesh w L. destruct (race_sem _ _ _ _ _ _ _ _ _ RZ (vget 0 w) (vget 1 w) (vget 2 w) (row_s w) (row_u w) (vget 15 w) (vget 16 w)) as (out & E & _ & K).
  exists out. split; [|exact K]. unfold called. pose proof (row_states tire_out aero_out tire_f aero_f own jac hess js hs w L) as E1. pose proof (proj1 (row_inputs tire_out aero_out tire_f aero_f own jac hess js hs w L)) as E2.
  fold M in E1, E2. rewrite E1, E2. exact E.
Qed.
Lemma facts : forall w, List.length w = 17%nat -> D w -> base_facts v w.
Proof. intros w _ H. apply base_iff. apply H. Qed.
Lemma loads : forall w c, List.length w = 17%nat -> D w -> good c (f_wheel_load v aero (row_s w) (row_u w) c) (f_kappa v (row_s w) c) (f_alpha v (row_s w) (row_u w) c * mirror c).
Proof. intros w c L H. apply H. Qed.
Let H0 : roomy 17 D := tire_row_roomy v aero tire good smooth tires 17.
Let H1 : forall w, List.length w = 17%nat -> D w -> vget 3 w <> 0 := fun w L H => bf_moving _ _ (facts w L H).
Let H2 : forall w, List.length w = 17%nat -> D w -> vget 8 w + vget 9 w <> 0 := fun w L H => bf_rear _ _ (facts w L H).
Let H3 : forall w c, List.length w = 17%nat -> D w -> patch_speed v (row_s w) (row_u w) c <> 0 := fun w c L H => bf_patch _ _ (facts w L H) c.

Lemma ret_dot : tw D 17 (fun w => d_vx (ret w)) /\ tw D 17 (fun w => d_vy (ret w)) /\ tw D 17 (fun w => d_yaw_rate (ret w)) /\ forall c, tw D 17 (fun w => d_wheel_speed (ret w) c).
Proof.
  destruct (tw_ax' D 17 v aero tire good smooth tires H0 H1 H3 loads) as [A B]. unfold ret. cbn [vehicle_forward d_vx d_vy d_yaw_rate d_wheel_speed row_s vx vy yaw_rate].
  split; [tw|]. split; [tw|]. split; [exact (tw_yaw' D 17 v aero tire good smooth tires H0 H1 H3 loads)|]. intro c. exact (tw_wheel' D 17 v aero tire good smooth tires H0 H1 H2 H3 loads c).
Qed.
Lemma ret_out : forall nm, In nm veh_outputs -> exists f, tw D 17 f /\ forall w, dget nm (veh_out (ret w)) = Some (f w).
Proof.
  destruct (tw_ax' D 17 v aero tire good smooth tires H0 H1 H3 loads) as [A B]. pose proof (tw_kappa D 17 v H1) as K. pose proof (tw_alpha D 17 v H3) as AL. pose proof (tw_body' D 17 v aero tire good smooth tires H0 H1 H3 loads) as F. pose proof (tw_drive_rl D 17 v H2) as DR. pose proof (tw_load D 17 v aero smooth) as LD.
  assert (forall c, tw D 17 (fun w => Z (f_force_body v aero tire (row_s w) (row_u w) c))) as FZ.
  { intro c. specialize (LD c). apply (tw_eq D 17 (fun w => f_wheel_load v aero (row_s w) (row_u w) c)); [|exact LD]. intro w. unfold f_force_body, rotate_z, f_force_wheel, X, Y, Z. cbn [fst snd]. ring. }
  intros nm Hn. unfold ret. cbn [veh_outputs In] in Hn.
  repeat (destruct Hn as [<-|Hn]; [eexists; split; [|intro w; cbn [veh_out vehicle_forward o_ax o_ay o_drive_torque_rl o_drive_torque_rr o_F o_slip_ratio o_slip_angle o_res_ax o_res_ay]; unfold dget; cbn [find]; reflexivity]; cbv beta;
    first [exact A|exact B|apply FZ|apply (F fl)|apply (F fr)|apply (F rl)|apply (F rr)|apply K|apply AL|exact DR|idtac]|]); try contradiction.
  - cbn [vehicle_forward o_drive_torque_rr]. unfold f_drive_torque, f_delta_torque. cbn [row_s wheel_speed]. tw.
  - cbn [vehicle_forward o_res_ax row_u ax_in]. tw.
  - cbn [vehicle_forward o_res_ay row_u ay_in]. tw.
Qed.

Let sp w := road_speed (vget 1 w) (vget 2 w) (vget 15 w) (row_s w).
Lemma speed_tw : tw D 17 sp.
Proof.
  unfold sp, road_speed. cbn [row_s vx vy]. apply (tw_div D 17 (fun w => vget 3 w * cos (vget 2 w) - vget 4 w * sin (vget 2 w)) (fun w => 1 - vget 1 w * vget 15 w)); [|tw|tw].
  intros w L H. exact (bf_bend _ _ (facts w L H)).
Qed.
Lemma speed_nz : forall w, List.length w = 17%nat -> D w -> sp w <> 0.
Proof.
  intros w L H. unfold sp, road_speed. cbn [row_s vx vy]. pose proof (facts w L H) as F. apply Rmult_integral_contrapositive. split; [exact (bf_along _ _ F)|]. apply Rinv_neq_0_compat. exact (bf_bend _ _ F).
Qed.
Lemma over_speed : forall f, tw D 17 f -> tw D 17 (fun w => f w / sp w).
Proof. intros f A. apply (tw_div D 17 f sp); [exact speed_nz|exact A|exact speed_tw]. Qed.
Lemma per_speed : forall f, tw D 17 f -> tw D 17 (fun w => f w * (1 / sp w)).
Proof. intros f A. apply (tw_mult D 17 f (fun w => 1 / sp w)); [exact A|]. apply (over_speed (fun _ => 1)). apply tw_const. Qed.
Lemma race_dot : forall nm, In nm (m_states M) -> exists f, tw D 17 f /\ forall w, dget nm (dot10 (vget 1 w) (vget 2 w) (vget 15 w) (row_s w) (ret w)) = Some (f w).
Proof.
  destruct ret_dot as (A1 & A2 & A3 & A4). intros nm Hn. change (m_states M) with (kin_states ++ veh_states) in Hn. cbn [kin_states veh_states app In] in Hn.
  destruct Hn as [<-|Hn]; [exists (fun w => 1 / sp w); split; [apply (over_speed (fun _ => 1)); apply tw_const|reflexivity]|].
  destruct Hn as [<-|Hn]; [exists (fun w => (vget 3 w * sin (vget 2 w) + vget 4 w * cos (vget 2 w)) / sp w); split; [apply over_speed; tw|reflexivity]|].
  destruct Hn as [<-|Hn]; [exists (fun w => (vget 5 w - vget 15 w * sp w) / sp w); split; [|reflexivity]|].
  { apply (over_speed (fun w => vget 5 w - vget 15 w * sp w)). pose proof speed_tw. apply (tw_minus D 17 (vget 5) (fun w => vget 15 w * sp w)); [apply tw_coord|]. apply (tw_mult D 17 (vget 15) sp); [apply tw_coord|assumption]. }
  destruct Hn as [<-|Hn]; [eexists; split; [apply per_speed; exact A1|reflexivity]|].
  destruct Hn as [<-|Hn]; [eexists; split; [apply per_speed; exact A2|reflexivity]|].
  destruct Hn as [<-|Hn]; [eexists; split; [apply per_speed; exact A3|reflexivity]|].
  destruct Hn as [<-|Hn]; [eexists; split; [apply per_speed; exact (A4 fl)|reflexivity]|].
  destruct Hn as [<-|Hn]; [eexists; split; [apply per_speed; exact (A4 fr)|reflexivity]|].
  destruct Hn as [<-|Hn]; [eexists; split; [apply per_speed; exact (A4 rl)|reflexivity]|].
  destruct Hn as [<-|Hn]; [eexists; split; [apply per_speed; exact (A4 rr)|reflexivity]|contradiction].
Qed.

Lemma tires_smooth : forall con, incl con (map (fun nm => prefixed "vehicle" nm) veh_outputs) -> twice_differentiable_on M (tires_domain v aero good) con q.
Proof.
  intros con IC mesh. cbv zeta. change (List.length (m_states M) + List.length (m_inputs M))%nat with 17%nat.
  assert (roomy 17 D) as RD by now apply (tire_row_roomy v aero tire).
  assert (forall x, List.length x = 17%nat -> within M (tires_domain v aero good) mesh x -> D x) as WD by (intros x L H; now apply (within_tires tire_out aero_out tire_f aero_f own jac hess js hs v aero good mesh x L)).
  split.
  - intros nm Hn. destruct (race_dot nm Hn) as (f & A & E). apply (tw_sub D); [exact WD|]. apply (tw_on D 17 f); [exact RD| |exact A].
    intros w L _. unfold derivative_value. destruct (row_called mesh w L) as (out & EC & _). rewrite EC, E. reflexivity.
  - intros nm Hn. assert (exists k, In k veh_outputs /\ nm = prefixed "vehicle" k) as (k & Hk & ->).
    { destruct Hn as [Hn|Hn]; [apply IC, in_map_iff in Hn; destruct Hn as (k & <- & Hk); eauto|]. destruct (race_outputs tire_out aero_out) as (_ & _ & O3). change (m_residuals M) with (residuals_of (race_mio tire_out aero_out)) in Hn. rewrite O3 in Hn.
      destruct Hn as [<-|[<-|[]]]; [exists "res_ax"|exists "res_ay"]; (split; [cbn; tauto|reflexivity]). }
    destruct (ret_out k Hk) as (f & A & E). apply (tw_sub D); [exact WD|]. apply (tw_on D 17 f); [exact RD| |exact A].
    intros w L _. unfold output_value. destruct (row_called mesh w L) as (out & EC & K). rewrite EC, (K _ _ (E w)). reflexivity.
Qed.
End Race.
