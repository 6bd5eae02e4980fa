(** Lemmas for C54: what the vehicle on a track computes. *)
From Coq Require Import FunctionalExtensionality.
From Verif Require Import Base RBase TreeModel UtilsModel UtilsProofs2 IoModel IoProofs VehModel VehSpec KinModel BuildModel RaceModel.

(** ** the end of a [forward]: the outputs of all submodels under their prefixes *)
Lemma comb_nodup : forall (b : buffer R) acc d, NoDup (keys acc) -> foldM comb_step b acc = Ok d -> NoDup (keys d).
Proof.
  induction b as [|[n o] b IH]; intros acc d H E; cbn [foldM] in E; [injection E as <-; exact H|].
  unfold comb_step in E at 1. cbn [fst snd] in E. destruct o as [r|]; [|discriminate]. cbn [bind] in E. eapply IH; [|exact E]. now apply NoDup_keys_dupdate.
Qed.
Lemma prefixed_dot : forall n k, no_char dot (prefixed n k) = false.
Proof. intros n k. unfold prefixed. induction n as [|a n IH]; simpl; [reflexivity|]. rewrite IH. apply Bool.andb_false_r. Qed.
Lemma finish_ok : forall m (b : buffer R) kw, NoDup (keys b) -> Forall (fun n => no_char dot n = true) (keys b) -> NoDup (keys kw) -> Forall (fun n => no_char dot n = true) (keys kw) ->
  (forall n o, In (n, o) b -> exists r, o = Some r /\ NoDup (keys r)) -> incl (d_outputs (mio_direct m)) (keys kw) ->
  (forall n sub, In (n, sub) (mio_subs m) -> exists r, dget n b = Some (Some r) /\ incl (outputs_of sub) (keys r)) ->
  exists d, finish m b kw = Ok d /\ NoDup (keys d) /\ incl (outputs_of m) (keys d) /\ (forall k, In k (keys kw) -> dget k d = dget k kw) /\
    (forall n r k, dget n b = Some (Some r) -> In k (keys r) -> dget (prefixed n k) d = dget k r).
Proof.
  intros m b kw NB DB NK DK HB HO HS.
  assert (exists d0, snd (combine_outputs (sm_of m) b) = Ok d0) as [d0 E0].
  { apply (proj1 (combine_spec (sm_of m) b NB)). intros n Hn. apply dget_some_iff in Hn. destruct Hn as [o Ho]. destruct (HB n o (dget_in _ _ _ _ Ho)) as (r & -> & _). eauto. }
  assert (forall n r, dget n b = Some (Some r) -> NoDup (keys r)) as HR. { intros n r H. destruct (HB _ _ (dget_in _ _ _ _ H)) as (r' & E & X). injection E as <-. exact X. }
  pose proof (combine_contents (sm_of m) b d0 NB DB HR E0) as CC.
  assert (NoDup (keys d0)) as N0. { unfold combine_outputs in E0. destruct (foldM comb_step b []) as [d|] eqn:EF; [|discriminate]. injection E0 as <-. eapply comb_nodup; [|exact EF]. constructor. }
  assert (forall k, In k (keys kw) -> ~ In k (keys d0)) as DIS.
  { intros k Hk Hd. apply dget_some_iff in Hd. destruct Hd as [v Hv]. apply CC in Hv. destruct Hv as (n & k' & r & _ & -> & _). rewrite Forall_forall in DK. specialize (DK _ Hk). rewrite prefixed_dot in DK. discriminate. }
  assert (forall n r k, dget n b = Some (Some r) -> In k (keys r) -> dget (prefixed n k) d0 = dget k r) as Hd0.
  { intros n r k Hp Hk. apply dget_some_iff in Hk. destruct Hk as [v Hv]. rewrite Hv. apply CC. eauto 6. }
  exists (kw ++ d0).
  assert (existsb (fun k => mem k (keys d0)) (keys kw) = false) as EX.
  { destruct (existsb _ _) eqn:E; [|reflexivity]. apply existsb_exists in E. destruct E as (k & Hk & Hm). apply mem_In in Hm. exfalso. exact (DIS k Hk Hm). }
  assert (incl (outputs_of m) (keys (kw ++ d0))) as HI.
  { destruct m as [dd s]. intros q Hq. cbn [outputs_of] in Hq. unfold keys. rewrite map_app. apply in_or_app. apply in_app_or in Hq. destruct Hq as [Hq|Hq]; [left; apply HO; exact Hq|right].
    apply in_flat_map in Hq. destruct Hq as ([n sub] & Hin & Hq). apply in_map_iff in Hq. destruct Hq as (k & <- & Hk). destruct (HS n sub Hin) as (r & Hp & Hi). specialize (Hi k Hk).
    change (In (prefixed n k) (keys d0)). apply dget_some_iff. rewrite (Hd0 n r k Hp Hi). now apply dget_some_iff. }
  split; [|split; [|split; [exact HI|split]]].
  - unfold finish, make_outputs_dict. destruct (combine_outputs (sm_of m) b) as [b' o]. cbn [snd] in E0. subst o. cbn [snd]. rewrite EX. unfold make_dict. rewrite (proj2 (proj1 (check_keys_ok _ _)) HI). reflexivity.
  - unfold keys in *. rewrite map_app. apply NoDup_app_intro; auto.
  - intros k Hk. rewrite dget_app. apply dget_some_iff in Hk. destruct Hk as [v ->]. reflexivity.
  - intros n r k Hp Hk. rewrite dget_app. assert (dget (prefixed n k) kw = None) as ->; [|now apply Hd0]. apply dget_none. intro HX. apply (DIS _ HX). apply dget_some_iff. rewrite (Hd0 n r k Hp Hk). now apply dget_some_iff.
Qed.

(** ** the arithmetic depends on the submodels only through the values they return *)
Lemma same_values : forall v aero tire s u cx cz (force : corner -> R * R), aero (vx s) (vy s) (yaw_rate s) = (cx, cz) -> (forall c, force c = f_tire v aero tire s u c) ->
  vehicle_forward v (fun _ _ _ => (cx, cz)) (fun c _ _ _ _ _ => force c) s u = vehicle_forward v aero tire s u.
Proof.
  intros v aero tire s u cx cz force EA EF. assert (f_aero (fun _ _ _ => (cx, cz)) s = f_aero aero s) as A by (unfold f_aero; now rewrite EA).
  assert (forall c, f_wheel_load v (fun _ _ _ => (cx, cz)) s u c = f_wheel_load v aero s u c) as W by (intros c; unfold f_wheel_load, f_Fz_total; now rewrite A).
  assert (forall c, f_force_wheel v (fun _ _ _ => (cx, cz)) (fun c _ _ _ _ _ => force c) s u c = f_force_wheel v aero tire s u c) as F.
  { intros c. unfold f_force_wheel. rewrite W. unfold f_tire at 1 2. cbv beta. rewrite EF. reflexivity. }
  assert (f_force_body v (fun _ _ _ => (cx, cz)) (fun c _ _ _ _ _ => force c) s u = f_force_body v aero tire s u) as B by (apply functional_extensionality; intro c; unfold f_force_body; now rewrite F).
  assert (f_drag v (fun _ _ _ => (cx, cz)) s = f_drag v aero s) as D by (unfold f_drag; now rewrite A).
  assert (f_total_force v (fun _ _ _ => (cx, cz)) (fun c _ _ _ _ _ => force c) s u = f_total_force v aero tire s u) as T by (unfold f_total_force; now rewrite B, D).
  assert (f_total_moment v (fun _ _ _ => (cx, cz)) (fun c _ _ _ _ _ => force c) s u = f_total_moment v aero tire s u) as M by (unfold f_total_moment, sum4, f_moment_body; now rewrite B).
  unfold vehicle_forward, f_ax, f_ay, f_yaw_accel. rewrite T, M, B. f_equal. apply functional_extensionality. intro c. unfold f_wheel_speed_dot. now rewrite F.
Qed.

(** ** submodels that return what they declare *)
Section Sem.
Context {P : Type}.
Variables (tire_out aero_out : list string) (tire_f : P -> corner -> dict R -> result (dict R)) (aero_f : P -> dict R -> result (dict R)) (own : P -> dict R).
Variables (q : P) (v : vparams) (aero : aero_model) (tire : corner -> tire_model).
Hypothesis HV : read_params (own q) = Ok v.
Hypothesis HA : forall a b c, exists d, aero_f q [("front_ride_height", a); ("rear_ride_height", b); ("yaw", c)] = Ok d /\ NoDup (keys d) /\ incl aero_out (keys d) /\ dget "Cx" d = Some (fst (aero a b c)) /\ dget "Cz" d = Some (snd (aero a b c)).
Hypothesis HT : forall c Fz kappa alpha vx gamma, exists d, tire_f q c [("Fz", Fz); ("kappa", kappa); ("alpha", alpha); ("vx", vx); ("gamma", gamma)] = Ok d /\ NoDup (keys d) /\ incl tire_out (keys d) /\
  dget "Fx" d = Some (fst (tire c Fz kappa alpha vx gamma)) /\ dget "Fy" d = Some (snd (tire c Fz kappa alpha vx gamma)).
Let vm := veh_mio tire_out aero_out.

Lemma tire_sem : forall cz s u b c, snd (aero (vx s) (vy s) (yaw_rate s)) = cz -> dget (at_corner "tire_" c) b = Some None ->
  exists d, call_tire tire_out aero_out tire_f q v cz s u b c = Ok (dset (at_corner "tire_" c) (Some d) b, f_tire v aero tire s u c) /\ NoDup (keys d) /\ incl tire_out (keys d).
Proof using HT.
  intros cz s u b c EC EB. assert (f_wheel_load v (fun _ _ _ => (0, cz)) s u c = f_wheel_load v aero s u c) as W. { unfold f_wheel_load, f_Fz_total, f_aero. cbn [snd]. now rewrite EC. }
  destruct (HT c (f_wheel_load v aero s u c) (f_kappa v s c) (f_alpha v s u c * mirror c) (X (f_vel_wheel v s u c)) (0 * mirror c)) as (d & E & N & I & E1 & E2).
  exists d. split; [|auto]. unfold call_tire, call. rewrite W, E. cbn [map fst snd]. rewrite proper_call.
  - cbn [bind fst snd]. unfold lookup_err. rewrite E1. cbn [bind]. rewrite E2. cbn [bind]. unfold f_tire. now rewrite <- surjective_pairing.
  - destruct c; reflexivity.
  - exists false, tire_inputs, [], []. split; [destruct c; reflexivity|]. split; [|discriminate]. eexists. split; [reflexivity|]. intros k Hk. exact Hk.
  - exact EB.
Qed.

Definition veh_dot (r : vreturn) : dict R :=
  [("vx", d_vx r); ("vy", d_vy r); ("yaw_rate", d_yaw_rate r); ("wheel_speed_fl", d_wheel_speed r fl); ("wheel_speed_fr", d_wheel_speed r fr); ("wheel_speed_rl", d_wheel_speed r rl); ("wheel_speed_rr", d_wheel_speed r rr)].
Definition veh_st (s : vstates) : dict R :=
  [("vx", vx s); ("vy", vy s); ("yaw_rate", yaw_rate s); ("wheel_speed_fl", wheel_speed s fl); ("wheel_speed_fr", wheel_speed s fr); ("wheel_speed_rl", wheel_speed s rl); ("wheel_speed_rr", wheel_speed s rr)].
Definition veh_in (u : vinputs) : dict R := [("throttle", throttle u); ("brake", brake u); ("steer", steer u); ("ax", ax_in u); ("ay", ay_in u)].
(** all outputs of the vehicle by name *)
Definition veh_out (r : vreturn) : dict R :=
  [("ax", o_ax r); ("ay", o_ay r); ("drive_torque_rl", o_drive_torque_rl r); ("drive_torque_rr", o_drive_torque_rr r);
     ("Fx_tire_fl", X (o_F r fl)); ("Fy_tire_fl", Y (o_F r fl)); ("Fz_tire_fl", Z (o_F r fl)); ("Fx_tire_fr", X (o_F r fr)); ("Fy_tire_fr", Y (o_F r fr)); ("Fz_tire_fr", Z (o_F r fr));
     ("Fx_tire_rl", X (o_F r rl)); ("Fy_tire_rl", Y (o_F r rl)); ("Fz_tire_rl", Z (o_F r rl)); ("Fx_tire_rr", X (o_F r rr)); ("Fy_tire_rr", Y (o_F r rr)); ("Fz_tire_rr", Z (o_F r rr));
     ("res_ax", o_res_ax r); ("res_ay", o_res_ay r);
     ("slip_ratio_fl", o_slip_ratio r fl); ("slip_angle_fl", o_slip_angle r fl); ("slip_ratio_fr", o_slip_ratio r fr); ("slip_angle_fr", o_slip_angle r fr);
     ("slip_ratio_rl", o_slip_ratio r rl); ("slip_angle_rl", o_slip_angle r rl); ("slip_ratio_rr", o_slip_ratio r rr); ("slip_angle_rr", o_slip_angle r rr)].
Lemma veh_sem : forall s u, let r := vehicle_forward v aero tire s u in
  exists out, veh_forward tire_out aero_out tire_f aero_f own q (veh_st s) (veh_in u) = Ok (veh_dot r, out) /\ NoDup (keys out) /\ incl (outputs_of vm) (keys out) /\ (forall k w, dget k (veh_out r) = Some w -> dget k out = Some w).
Proof using HV HA HT.
  intros s u r. destruct (HA (vx s) (vy s) (yaw_rate s)) as (da & EA & NA & IA & EX & EZ). destruct (aero (vx s) (vy s) (yaw_rate s)) as [cx cz] eqn:EC. cbn [fst snd] in EX, EZ.
  assert (exists s', read_states (veh_st s) = Ok s' /\ vx s' = vx s /\ vy s' = vy s /\ yaw_rate s' = yaw_rate s /\ wheel_speed s' = wheel_speed s) as (s' & ES & S1 & S2 & S3 & S4).
  { eexists. split; [reflexivity|]. cbn [vx vy yaw_rate wheel_speed]. repeat split; try reflexivity. apply functional_extensionality. intros []; reflexivity. }
  assert (s' = s) as -> by (destruct s', s; cbn in *; congruence).
  assert (read_inputs (veh_in u) = Ok u) as EU by (destruct u; reflexivity).
  unfold veh_forward. rewrite EU. cbn [bind]. rewrite ES. cbn [bind]. rewrite HV. cbn [bind]. cbv zeta. rewrite EA.
  set (b0 := clear_buffer (sm_of (veh_mio tire_out aero_out)) : buffer R).
  assert (call (veh_mio tire_out aero_out) b0 "aero" [("inputs", [("front_ride_height", vx s); ("rear_ride_height", vy s); ("yaw", yaw_rate s)])] (Ok da) = Ok (dset "aero" (Some da) b0, da)) as ->.
  { unfold call. rewrite proper_call; [reflexivity|reflexivity| |reflexivity]. exists false, aero_in_names, [], []. split; [reflexivity|]. split; [|discriminate]. eexists. split; [reflexivity|]. intros k Hk. exact Hk. }
  cbn [bind fst snd]. unfold lookup_err at 1. rewrite EZ. cbn [bind].
  destruct (tire_sem cz s u (dset "aero" (Some da) b0) fl ltac:(now rewrite EC) eq_refl) as (d1 & -> & N1 & I1). cbn [bind fst snd].
  destruct (tire_sem cz s u (dset "tire_fl" (Some d1) (dset "aero" (Some da) b0)) fr ltac:(now rewrite EC) eq_refl) as (d2 & E2 & N2 & I2). cbn [at_corner cname String.append] in E2 |- *. rewrite E2. clear E2. cbn [bind fst snd].
  destruct (tire_sem cz s u (dset "tire_fr" (Some d2) (dset "tire_fl" (Some d1) (dset "aero" (Some da) b0))) rl ltac:(now rewrite EC) eq_refl) as (d3 & E3 & N3 & I3). cbn [at_corner cname String.append] in E3. rewrite E3. clear E3. cbn [bind fst snd].
  destruct (tire_sem cz s u (dset "tire_rl" (Some d3) (dset "tire_fr" (Some d2) (dset "tire_fl" (Some d1) (dset "aero" (Some da) b0)))) rr ltac:(now rewrite EC) eq_refl) as (d4 & E4 & N4 & I4). cbn [at_corner cname String.append] in E4. rewrite E4. clear E4. cbn [bind fst snd].
  unfold lookup_err. rewrite EX. cbn [bind].
  rewrite (same_values v aero tire s u cx cz (fun c => match c with fl => f_tire v aero tire s u fl | fr => f_tire v aero tire s u fr | rl => f_tire v aero tire s u rl | rr => f_tire v aero tire s u rr end)); [|exact EC|intros []; reflexivity].
  fold r. change (make_dict veh_states _) with (@Ok (dict R) (veh_dot r)). cbn [bind]. fold (veh_out r).
  set (b := dset "tire_rr" (Some d4) _). change b with [("tire_fl", Some d1); ("tire_fr", Some d2); ("tire_rl", Some d3); ("tire_rr", Some d4); ("aero", Some da)].
  destruct (finish_ok (veh_mio tire_out aero_out) [("tire_fl", Some d1); ("tire_fr", Some d2); ("tire_rl", Some d3); ("tire_rr", Some d4); ("aero", Some da)] (veh_out r)) as (out & EO & NO & IO & KO & _).
  - repeat constructor; cbn; intuition discriminate.
  - repeat constructor.
  - repeat constructor; cbn; intuition discriminate.
  - repeat constructor.
  - intros n o Hin. cbn [In] in Hin. repeat (destruct Hin as [E|Hin]; [injection E as <- <-; eexists; split; [reflexivity|assumption]|]). contradiction.
  - intros k Hk. cbn [mio_direct veh_mio d_outputs veh_outputs In] in Hk. repeat (destruct Hk as [<-|Hk]; [cbn; tauto|]). contradiction.
  - intros n sub Hin. cbn [mio_subs veh_mio In] in Hin. repeat (destruct Hin as [E|Hin]; [injection E as <- <-; eexists; split; [reflexivity|cbn [outputs_of stateless d_outputs flat_map]; rewrite app_nil_r; assumption]|]). contradiction.
  - exists out. rewrite EO. cbn [bind]. split; [reflexivity|]. split; [exact NO|]. split; [exact IO|]. intros k w Hk. rewrite KO; [exact Hk|]. apply dget_some_iff. eauto.
Qed.
End Sem.
