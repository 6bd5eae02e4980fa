(** C48: the planar drone. *)
From Verif Require Import Base RBase IoModel KinProps DroneModel.
From Coq Require Import Lra Lia.

(** the drone at time t of a motion, as dictionaries *)
Definition d_states (x vx z vz th : R -> R) (t : R) : dict R := [("x", x t); ("x_dot", vx t); ("z", z t); ("z_dot", vz t); ("theta", th t)].
Definition d_inputs (f om : R -> R) (t : R) : dict R := [("f", f t); ("omega", om t)].
(** the motion obeys the model at time t: every state moves with its reported derivative *)
Definition follows (g : R) (x vx z vz th f om : R -> R) (t : R) : Prop := exists sd out, drone_forward [("gravity", g)] (d_states x vx z vz th t) (d_inputs f om t) = Ok (sd, out) /\
  (forall k c v, In (k, c) [("x", x); ("x_dot", vx); ("z", z); ("z_dot", vz); ("theta", th)] -> dget k sd = Some v -> derivable_pt_lim c t v).

Lemma drone_eq : forall p s i th f g vx vz om, dget "theta" s = Some th -> dget "f" i = Some f -> dget "gravity" p = Some g -> dget "x_dot" s = Some vx -> dget "z_dot" s = Some vz -> dget "omega" i = Some om ->
  drone_forward p s i = Ok ([("x", vx); ("x_dot", f * sin th); ("z", vz); ("z_dot", f * cos th - g); ("theta", om)], [("sin_theta", sin th); ("f_omega", om * f)]).
Proof. intros p s i th f g vx vz om H1 H2 H3 H4 H5 H6. unfold drone_forward. rewrite (lookup_ok _ _ _ _ H1), (lookup_ok _ _ _ _ H2), (lookup_ok _ _ _ _ H3), (lookup_ok _ _ _ _ H4), (lookup_ok _ _ _ _ H5), (lookup_ok _ _ _ _ H6). reflexivity. Qed.

(** Newton: the thrust acts along the body axis (turned by theta from the vertical), gravity downwards; a missing state, input or parameter is an error. *)
Theorem C48_newton : forall p s i, 
  (forall th f g vx vz om, dget "theta" s = Some th -> dget "f" i = Some f -> dget "gravity" p = Some g -> dget "x_dot" s = Some vx -> dget "z_dot" s = Some vz -> dget "omega" i = Some om ->
    exists sd out ax az, drone_forward p s i = Ok (sd, out) /\ keys sd = drone_states /\ keys out = drone_outputs /\ dget "x" sd = Some vx /\ dget "z" sd = Some vz /\ dget "theta" sd = Some om /\ dget "x_dot" sd = Some ax /\ dget "z_dot" sd = Some az /\
      ax * sin th + (az + g) * cos th = f /\ ax * cos th - (az + g) * sin th = 0 /\ dget "sin_theta" out = Some (sin th) /\ dget "f_omega" out = Some (f * om)) /\
  (dget "theta" s = None \/ dget "f" i = None \/ dget "gravity" p = None \/ dget "x_dot" s = None \/ dget "z_dot" s = None \/ dget "omega" i = None -> drone_forward p s i = Raise KeyError).
Proof.
  intros p s i. split.
  - intros th f g vx vz om H1 H2 H3 H4 H5 H6. rewrite (drone_eq p s i _ _ _ _ _ _ H1 H2 H3 H4 H5 H6). pose proof (sin2_cos2 th) as Q. unfold Rsqr in Q. exists [("x", vx); ("x_dot", f * sin th); ("z", vz); ("z_dot", f * cos th - g); ("theta", om)], [("sin_theta", sin th); ("f_omega", om * f)], (f * sin th), (f * cos th - g). split; [reflexivity|]. split; [reflexivity|]. split; [reflexivity|].
    split; [reflexivity|]. split; [reflexivity|]. split; [reflexivity|]. split; [reflexivity|]. split; [reflexivity|]. split; [|split; [ring|split; [reflexivity|cbn; f_equal; ring]]]. replace (f * sin th * sin th + (f * cos th - g + g) * cos th) with (f * (sin th * sin th + cos th * cos th)) by ring. rewrite Q. ring.
  - intro H. unfold drone_forward, lookup_err. destruct (dget "theta" s); [|reflexivity]. cbn [bind]. destruct (dget "f" i); [|reflexivity]. cbn [bind]. destruct (dget "gravity" p); [|reflexivity]. cbn [bind]. destruct (dget "x_dot" s); [|reflexivity]. cbn [bind]. destruct (dget "z_dot" s); [|reflexivity]. cbn [bind]. destruct (dget "omega" i); [|reflexivity]. intuition discriminate.
Qed.
Print Assumptions C48_newton.

Lemma follows_inv : forall g x vx z vz th f om t, follows g x vx z vz th f om t <->
  derivable_pt_lim x t (vx t) /\ derivable_pt_lim vx t (f t * sin (th t)) /\ derivable_pt_lim z t (vz t) /\ derivable_pt_lim vz t (f t * cos (th t) - g) /\ derivable_pt_lim th t (om t).
Proof.
  intros g x vx z vz th f om t. unfold follows. rewrite (drone_eq _ _ _ (th t) (f t) g (vx t) (vz t) (om t)) by reflexivity. split.
  - intros (sd & out & E & H). injection E as <- <-. repeat split; eapply H; cbn; try reflexivity; auto 10.
  - intros (H1 & H2 & H3 & H4 & H5). do 2 eexists. split; [reflexivity|]. intros k c v Hin Hv. cbn in Hin. destruct Hin as [E|[E|[E|[E|[E|[]]]]]]; injection E as <- <-; cbn in Hv; injection Hv as <-; assumption.
Qed.
(** Energy: kinetic plus potential energy (per mass) changes with the power of the thrust. *)
Theorem C48_energy : forall g x vx z vz th f om t, follows g x vx z vz th f om t ->
  derivable_pt_lim (fun t => (vx t * vx t + vz t * vz t) / 2 + g * z t) t (f t * (vx t * sin (th t) + vz t * cos (th t))).
Proof.
  intros g x vx z vz th f om t H. apply follows_inv in H. destruct H as (_ & H2 & H3 & H4 & _).
  pose proof (dlim_plus _ _ t _ _ (dlim_scal _ (1 / 2) t _ (dlim_plus _ _ t _ _ (dlim_mult _ _ t _ _ H2 H2) (dlim_mult _ _ t _ _ H4 H4))) (dlim_scal _ g t _ H3)) as D. cbv beta in D.
  eapply dlim_eq; [|eapply dlim_ext; [|exact D]]; [field|]. intro u. cbv beta. field.
Qed.
Print Assumptions C48_energy.
(** Free fall: without thrust the energy is conserved (its derivative vanishes) and the horizontal speed is constant. *)
Theorem C48_free_fall : forall g x vx z vz th om, (forall t, follows g x vx z vz th (fun _ => 0) om t) -> forall t,
  (vx t * vx t + vz t * vz t) / 2 + g * z t = (vx 0 * vx 0 + vz 0 * vz 0) / 2 + g * z 0 /\ vx t = vx 0.
Proof.
  intros g x vx z vz th om H t.
  assert (forall h : R -> R, (forall u, derivable_pt_lim h u 0) -> h t = h 0) as Z.
  { intros h Hh. assert (exists pr : derivable h, forall u, derive_pt h u (pr u) = 0) as (pr & E). { exists (fun u => exist _ 0 (Hh u)). reflexivity. } pose proof (null_derivative_1 h pr E) as C. apply C. }
  split.
  - apply (Z (fun t => (vx t * vx t + vz t * vz t) / 2 + g * z t)). intro u. eapply dlim_eq; [|apply (C48_energy g x vx z vz th (fun _ => 0) om u (H u))]. cbv beta. ring.
  - apply Z. intro u. specialize (H u). apply follows_inv in H. destruct H as (_ & H & _). eapply dlim_eq; [|exact H]. cbv beta. ring.
Qed.
Print Assumptions C48_free_fall.
(** Hovering: all derivatives vanish exactly when the drone is at rest, not turning, and the thrust balances gravity vertically. *)
Theorem C48_hover : forall g x vx z vz th f om t, 0 < g ->
  (exists out, drone_forward [("gravity", g)] (d_states x vx z vz th t) (d_inputs f om t) = Ok ([("x", 0); ("x_dot", 0); ("z", 0); ("z_dot", 0); ("theta", 0)], out)) <->
  (vx t = 0 /\ vz t = 0 /\ om t = 0 /\ sin (th t) = 0 /\ f t * cos (th t) = g).
Proof.
  intros g x vx z vz th f om t Hg. rewrite (drone_eq _ _ _ (th t) (f t) g (vx t) (vz t) (om t)) by reflexivity. split.
  - intros (out & E). injection E as E1 E2 E3 E4 E5 _. repeat split; try assumption; [|lra]. destruct (Rmult_integral _ _ E2) as [Zf|]; [|assumption]. rewrite Zf in E4. lra.
  - intros (-> & -> & -> & E1 & E2). rewrite E1, E2, Rmult_0_r, Rminus_diag_eq by reflexivity. now eexists.
Qed.
Print Assumptions C48_hover.

(** ** a drone thrown upwards *)
Example C48_nonvacuous : follows 10 (fun t => 3 * t) (fun _ => 3) (fun t => 5 * t - 5 * (t * t)) (fun t => 5 - 10 * t) (fun _ => 1) (fun _ => 0) (fun _ => 0) 2.
Proof.
  apply follows_inv. split; [|split; [|split; [|split]]].
  - apply dlim_ext with (f := fun t => 3 * t + 0); [intro; ring|apply dlim_lin].
  - eapply dlim_eq; [|apply dlim_const]. ring.
  - pose proof (dlim_lin 1 0 2) as L1. pose proof (dlim_lin 1 0 2) as L2. pose proof (dlim_plus _ _ 2 _ _ (dlim_lin 5 0 2) (dlim_scal _ (-5) 2 _ (dlim_mult _ _ 2 _ _ L1 L2))) as D. eapply dlim_eq; [|eapply dlim_ext; [|exact D]]; [cbv beta; ring|]. intro u. cbv beta. ring.
  - eapply dlim_eq; [|apply dlim_ext with (f := fun t => -10 * t + 5); [intro; ring|apply dlim_lin]]. ring.
  - apply dlim_const.
Qed.
(** With the default parameters gravity is 9.81 m/s^2: the drone hovers upright with exactly that thrust (per mass). *)
Theorem C48_default_gravity : forall s i f, dget "theta" s = Some 0 -> dget "x_dot" s = Some 0 -> dget "z_dot" s = Some 0 -> dget "omega" i = Some 0 -> dget "f" i = Some f ->
  exists sd out az, drone_forward drone_default_params s i = Ok (sd, out) /\ dget "z_dot" sd = Some az /\ (az = 0 <-> f = 9.81).
Proof.
  intros s i f H1 H2 H3 H4 H5. rewrite (drone_eq drone_default_params s i 0 f (981 / 100) 0 0 0) by (assumption || reflexivity). do 3 eexists. split; [reflexivity|]. split; [reflexivity|]. rewrite cos_0. lra.
Qed.
Print Assumptions C48_default_gravity.
