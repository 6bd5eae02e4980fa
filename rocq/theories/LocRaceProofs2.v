(** Lemmas for C72: the domain is open, and what the model returns there. *)
From Verif Require Import Base RBase TreeModel UtilsModel IoModel AlgModel AlgSpec NlpModel OcpModel BuildModel BuildSpec VehModel VehSpec VehProps KinModel TireModel RaceModel RaceProofs RaceSpec RaceProofs2 DomSpec DomProofs
  JaxSpec LocSpec LocJaxSpec LocProofs LocProps LocCalc LocRaceSpec LocRaceProofs.
Import ListNotations.
Open Scope R_scope.

Definition corners : list corner := [fl; fr; rl; rr].
Lemma all_corners : forall c, In c corners.
Proof. intros []; cbn; tauto. Qed.
Definition row_guards (v : vparams) (t : tparams) (aero : aero_model) : list (list R -> R) :=
  (fun _ => cog_to_fa v + cog_to_ra v) :: (fun _ => track_front v) :: (fun _ => track_rear v) :: (fun _ => vehicle_mass v) :: (fun _ => Iz v) :: (fun _ => wheel_inertia v) ::
  (fun w => vget 3 w) :: (fun w => vget 8 w + vget 9 w) :: (fun w => 1 - vget 1 w * vget 15 w) :: (fun w => vget 3 w * cos (vget 2 w) - vget 4 w * sin (vget 2 w)) ::
  (fun _ => Fz1 t - Fz2 t) :: (fun _ => Qx t) :: (fun _ => Qy t) ::
  map (fun c w => patch_speed v (row_s w) (row_u w) c) corners ++
  map (fun c w => let Fz := static_load v (snd (aero (vget 3 w) (vget 4 w) (vget 5 w)) * qdyn v (row_s w)) (row_u w) c in kappa1 t * (Fz2 t - Fz) - kappa2 t * (Fz1 t - Fz)) corners ++
  map (fun c w => let Fz := static_load v (snd (aero (vget 3 w) (vget 4 w) (vget 5 w)) * qdyn v (row_s w)) (row_u w) c in alpha1 t * (Fz2 t - Fz) - alpha2 t * (Fz1 t - Fz)) corners.
Definition row_domain (v : vparams) (t : tparams) (aero : aero_model) (w : list R) : Prop := Forall (fun f => f w <> 0) (row_guards v t aero).

Lemma guards_tw : forall D n v t aero, smooth_aero aero -> Forall (tw D n) (row_guards v t aero).
Proof.
  intros D n v t aero SA. unfold row_guards. do 13 (apply Forall_cons; [tw|]). apply Forall_app. split; [|apply Forall_app; split]; apply Forall_forall; intros f Hf; apply in_map_iff in Hf; destruct Hf as (c & <- & _).
  - apply tw_patch.
  - pose proof (tw_static D n v aero SA c) as A. cbv zeta. tw.
  - pose proof (tw_static D n v aero SA c) as A. cbv zeta. tw.
Qed.
Lemma roomy_all : forall n fs, Forall (fun f => forall D, tw D n f) fs -> roomy n (fun w => Forall (fun f => f w <> 0) fs).
Proof.
  intros n fs H. induction H as [|f r Hf Hr IH].
  - intros x k L _ Hk. exists 1. split; [lra|]. intros. constructor.
  - apply (roomy_sub (fun w => Forall (fun g => g w <> 0) r /\ f w <> 0)); [|apply (roomy_nz _ _ f IH); apply Hf].
    intros x _. split; [intro A; inversion A; auto|intros [A B]; now constructor].
Qed.
Lemma row_roomy : forall v t aero n, smooth_aero aero -> roomy n (row_domain v t aero).
Proof. intros v t aero n SA. apply roomy_all. apply Forall_forall. intros f Hf D. pose proof (guards_tw D n v t aero SA) as A. rewrite Forall_forall in A. now apply A. Qed.

Record row_facts (v : vparams) (t : tparams) (aero : aero_model) (w : list R) : Prop := {
  rf_sane : sane v; rf_moving : vget 3 w <> 0; rf_rear : vget 8 w + vget 9 w <> 0; rf_bend : 1 - vget 1 w * vget 15 w <> 0; rf_along : vget 3 w * cos (vget 2 w) - vget 4 w * sin (vget 2 w) <> 0;
  rf_patch : forall c, patch_speed v (row_s w) (row_u w) c <> 0; rf_tire : forall c, tire_defined t (static_load v (snd (aero (vget 3 w) (vget 4 w) (vget 5 w)) * qdyn v (row_s w)) (row_u w) c) }.
Lemma row_iff : forall v t aero w, row_domain v t aero w <-> row_facts v t aero w.
Proof.
  intros v t aero w. unfold row_domain, row_guards. split.
  - intro A. do 13 (apply Forall_cons_iff in A; destruct A as [? A]). apply Forall_app in A. destruct A as [P A]. apply Forall_app in A. destruct A as [K A]. rewrite Forall_forall in P, K, A.
    constructor; try assumption; [constructor; assumption| |].
    + intros c. exact (P _ (in_map _ _ _ (all_corners c))).
    + intros c. pose proof (K _ (in_map _ _ _ (all_corners c))) as K'. pose proof (A _ (in_map _ _ _ (all_corners c))) as A'. cbv beta zeta in K', A'. constructor; try assumption; intro E; [lra|apply K'; lra|apply A'; lra].
  - intros [[] M RE B AL P T]. destruct (T fl) as [T1 _ _ T4 T5]. do 13 (apply Forall_cons; [assumption || (intro; lra)|]).
    apply Forall_app. split; [|apply Forall_app; split]; apply Forall_forall; intros f Hf; apply in_map_iff in Hf; destruct Hf as (c & <- & _); cbv beta zeta.
    + apply P.
    + destruct (T c) as [_ T2 _ _ _]. intro E. apply T2. lra.
    + destruct (T c) as [_ _ T3 _ _]. intro E. apply T3. lra.
Qed.

Section Row.
Context {P : Type}.
Variables (tire_out aero_out : list string) (tire_f : P -> corner -> dict R -> result (dict R)) (aero_f : P -> dict R -> result (dict R)) (own : P -> dict R)
  (jac : list string -> list R -> R -> P -> list R) (hess : list string -> list R -> list R -> R -> P -> list R) (js hs : list string -> list nat * list nat).
Let M := race_model tire_out aero_out tire_f aero_f own jac hess js hs.
Lemma row17 : forall w : list R, List.length w = 17%nat -> exists a0 a1 a2 a3 a4 a5 a6 a7 a8 a9 a10 a11 a12 a13 a14 a15 a16, w = [a0; a1; a2; a3; a4; a5; a6; a7; a8; a9; a10; a11; a12; a13; a14; a15; a16].
Proof using. clear. intros w L. do 17 (destruct w as [|? w]; [discriminate L|]). destruct w; [|discriminate L]. do 17 eexists. reflexivity. Qed.
Lemma row_states : forall w, List.length w = 17%nat -> combine (m_states M) (firstn (List.length (m_states M)) w) = st10 (vget 0 w) (vget 1 w) (vget 2 w) (row_s w).
Proof using. intros w L. destruct (row17 w L) as (a0 & a1 & a2 & a3 & a4 & a5 & a6 & a7 & a8 & a9 & a10 & a11 & a12 & a13 & a14 & a15 & a16 & ->). reflexivity. Qed.
Lemma row_inputs : forall w, List.length w = 17%nat -> combine (m_inputs M) (skipn (List.length (m_states M)) w) = in7 (row_u w) (vget 15 w) (vget 16 w) /\
  combine (m_inputs M) (firstn (List.length (m_inputs M)) (skipn (List.length (m_states M)) w)) = in7 (row_u w) (vget 15 w) (vget 16 w).
Proof using. intros w L. destruct (row17 w L) as (a0 & a1 & a2 & a3 & a4 & a5 & a6 & a7 & a8 & a9 & a10 & a11 & a12 & a13 & a14 & a15 & a16 & ->). split; reflexivity. Qed.
Lemma within_row : forall v t aero mesh w, List.length w = 17%nat -> (within M (race_domain v t aero) mesh w <-> row_domain v t aero w).
Proof using.
  intros v t aero mesh w L. unfold within. rewrite (row_states w L), (proj2 (row_inputs w L)), row_iff. unfold race_domain. split.
  - intros (n & eta & s & u & k & C & SA & MV & RE & PA & TI & RO). destruct C as (C1 & C2 & C3 & C4 & C5 & C6 & C7 & C8 & C9 & C10 & C11 & C12 & C13 & C14 & C15). unfold st10, in7 in *. cbn in C1, C2, C3, C4, C5, C6, C7, C8, C9, C10, C11, C12, C13, C14, C15.
    apply some_inj in C1, C2, C3, C4, C5, C6, C7, C8, C9, C10, C11, C12, C13, C14, C15. destruct RO as [RO1 RO2]. rewrite <- C3, <- C4 in *. subst n eta k.
    assert (forall c, patch_speed v s u c = patch_speed v (row_s w) (row_u w) c) as EP by (intros []; unfold patch_speed, along, wheel_angle, point_vx, point_vy, px, py; cbn [row_s row_u vx vy yaw_rate steer]; now rewrite <- ?C3, <- ?C4, <- ?C5, <- ?C12).
    assert (forall c, static_load v (snd (aero (vx s) (vy s) (yaw_rate s)) * qdyn v s) u c = static_load v (snd (aero (vget 3 w) (vget 4 w) (vget 5 w)) * qdyn v (row_s w)) (row_u w) c) as EL by (intros []; unfold static_load, qdyn; cbn [row_s row_u vx vy ax_in ay_in]; now rewrite <- ?C3, <- ?C4, <- ?C5, <- ?C13, <- ?C14).
    constructor; try assumption.
    + rewrite C8, C9. lra.
    + intro E. apply RO1. lra.
    + intro E. apply RO2. lra.
    + intro c. rewrite <- EP. apply PA.
    + intro c. specialize (TI c). rewrite <- C5 in TI. rewrite <- EL, <- C3, <- C4, <- C5. exact TI.
  - intros [SA MV RE BE AL PA TI]. exists (vget 1 w), (vget 2 w), (row_s w), (row_u w), (vget 15 w). split; [unfold car_values; cbn; repeat split|].
    split; [exact SA|]. split; [exact MV|]. split; [cbn [row_s wheel_speed]; intro E; apply RE; lra|]. split; [exact PA|]. split; [exact TI|]. split; cbn [row_s vx vy]; intro E; [apply BE|apply AL]; lra.
Qed.
Lemma race_open : forall v t aero, smooth_aero aero -> open_domain M (race_domain v t aero).
Proof using. intros v t aero SA mesh. change (List.length (m_states M) + List.length (m_inputs M))%nat with 17%nat. apply (roomy_sub (row_domain v t aero)); [intros w L; now apply within_row|now apply row_roomy]. Qed.
End Row.
