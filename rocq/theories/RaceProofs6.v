(** Lemmas for C54: the trajectories of the laptime simulation of the vehicle are the laps, continued. *)
From Verif Require Import Base RBase TreeModel UtilsModel UtilsProofs IoModel IoProofs CollocModel CollocProofs CollocProps MeshModel MeshProps OcpModel OcpSpec OcpProofs OcpProps NlpModel AlgModel AlgSpec ConvModel ConvSpec CyclicSpec BoundModel BoundSpec BoundProofs ScaleModel ScaleSpec
  BuildModel BuildSpec BuildProofs BuildProofs4 BuildProofs5 BuildProofs6 VehModel VehSpec VehProps KinModel TrackModel TrackSpec LapModel LapSpec LapProofs LapProps2 FlightProofs RaceModel RaceProofs RaceSpec RaceProofs2 RaceProofs3 RaceProofs4 RaceProofs5.

Lemma sensible_sane : forall v, sensible v -> sane v.
Proof. intros v [E1 E2 E3 E4 _ _ E7 E8 E9]. constructor; try assumption; lra. Qed.
(** limits of a moment *)
Definition within (m : moment) : Prop := - (PI / 4) <= at_eta m <= PI / 4 /\ 5 <= vx (at_car m) <= 100 /\ -10 <= vy (at_car m) <= 10 /\ - (2 * PI) <= yaw_rate (at_car m) <= 2 * PI /\
    0 <= throttle (at_driver m) <= 1 /\ 0 <= brake (at_driver m) <= 1 /\ -1 <= steer (at_driver m) <= 1 /\
    forall c, 1 / 10 <= wheel_speed (at_car m) c <= 300 /\ - (5 / 100) <= at_ratio m c <= 5 / 100 /\ - (5 * PI / 180) <= at_angle m c <= 5 * PI / 180.
Lemma computed_regular : forall v aero tire f d l r m, sensible v -> gentle f -> road_at f d (at_curv m) (at_head m) l r -> - r <= at_n m <= l -> within m -> mechanics v aero tire m -> regular v m /\ 0 < along_road m.
Proof.
  intros v aero tire f d l r m SE GE RA HN (W1 & W2 & W3 & W4 & W5 & W6 & W7 & W8) ME. apply moment_regular; try assumption; try lra.
  - destruct (GE _ _ _ _ _ RA) as [G1 G2]. destruct (Rle_lt_dec 0 (at_curv m)); nra.
  - intros c d'. destruct ME as (Fx & Fy & Fz & tl & tr & _ & _ & _ & _ & A5 & _). destruct (A5 c) as (_ & E & _). unfold d'. rewrite <- E. apply W8.
Qed.

Section Laps.
Context {P : Type}.
Variables (tire_out aero_out : list string) (tire_f : P -> corner -> dict R -> result (dict R)) (aero_f : P -> dict R -> result (dict R)) (own : P -> dict R).
Variables (q : P) (v : vparams) (aero : aero_model) (tire : corner -> tire_model).
Hypothesis RZ : realizes tire_out aero_out tire_f aero_f own q v aero tire.
Hypothesis SE : sensible v.
Variables (o : ocp) (n : nat) (pl : list R) (f : track_file) (cyclic : bool) (B : list setting).
Hypothesis GE : gentle f.
Hypothesis DV : drivable f.
Hypothesis NS : num_stages (oc_op o) = (n + 1)%nat.
Hypothesis Hn : (1 <= n)%nat.
Let C := map of_bc (default_bcs true).
Hypothesis HR : forall s, (s <= n)%nat -> exists k h lf r, road_at f (nth s pl 0 * road_length f) k h lf r /\ expected (oc_op o) B C "inputs" "track_curvature" s = (Fin k, Fin k) /\
  expected (oc_op o) B C "inputs" "track_heading" s = (Fin h, Fin h) /\ expected (oc_op o) B C "states" "n" s = (Fin (- r), Fin lf).
Hypothesis HO : forall g nm s, forallb (fun e => negb (String.eqb e (svname g nm))) ["inputs.track_curvature"; "inputs.track_heading"; "states.n"] = true ->
  expected (oc_op o) B C g nm s = expected (oc_op o) (map of_bound default_bounds) C g nm s.
Let st := kin_states ++ veh_states.
Let inp := veh_inputs ++ ["track_curvature"; "track_heading"].
Let fwd : dict R -> dict R -> R -> result (dict R * dict R) := fun ds di _ => race_forward tire_out aero_out tire_f aero_f own q ds di.
Let cyc := if cyclic then Some (cyclic_pairs st inp ["states.time"; "inputs.track_heading"]) else None.
Definition traj (x : list R) : Prop := trajectory o st inp usual_outputs ["vehicle.res_ax"; "vehicle.res_ay"] fwd trapezoidal n pl (Some (road_length f)) cyc B C x.

Definition holds_at (x : list R) (s : nat) (m : moment) : Prop :=
  (forall nm a, In (nm, a) (state_list m) -> val o x "states" nm s a) /\ (forall nm a, In (nm, a) (input_list m) -> val o x "inputs" nm s a) /\
  (forall nm a, In (nm, a) (per_metre m) -> val o x "states_dot" nm s a) /\ (forall nm a, In (nm, a) (slip_list m) -> val o x "con_outputs" nm s a).
Definition on_road (s : nat) (m : moment) : Prop := exists l r, road_at f (nth s pl 0 * road_length f) (at_curv m) (at_head m) l r /\ - r <= at_n m <= l.

Lemma all_in : forall (l : list (string * R)) (Q : string -> R -> Prop), Forall (fun e => Q (fst e) (snd e)) l <-> (forall nm a, In (nm, a) l -> Q nm a).
Proof using. clear. intros l Q. rewrite Forall_forall. split; [intros H nm a K; exact (H (nm, a) K)|intros H [nm a] K; now apply H]. Qed.

Lemma bound_at : forall x g nm s a l u, traj x -> known_var st inp usual_outputs (Some (road_length f)) g nm -> (s <= n)%nat -> val o x g nm s a -> In (g, nm, l, u) plain_limits -> ele l a /\ ege u a.
Proof using HO Hn NS.
  clear RZ SE GE DV HR. intros x g nm s a l u TJ HK Hs V HL. destruct (tj_bounds _ _ _ _ _ _ _ _ _ _ _ _ _ _ TJ g nm s HK) as (w & W & W1 & W2); [cbn; lia|]. rewrite (val_fun _ _ _ _ _ _ _ V W). 
  assert (forallb (fun e => negb (String.eqb e (svname g nm))) ["inputs.track_curvature"; "inputs.track_heading"; "states.n"] = true) as FB.
  { clear - HL. cbn in HL. repeat (destruct HL as [HL|HL]; [injection HL as <- <- _ _; reflexivity|]). contradiction. }
  rewrite (HO g nm s FB) in W1, W2. unfold C in W1, W2. rewrite (exp_plain _ g nm l u s HL) in W1, W2. auto.
Qed.

Lemma stage_of_traj : forall x s, traj x -> (s <= n)%nat -> exists m, holds_at x s m /\ mechanics v aero tire m /\ on_road s m /\ within m /\ 0 <= at_t m /\ (s = 0%nat -> at_t m = 0).
Proof using RZ SE GE NS Hn HR HO.
  intros x s TJ Hs. destruct (cover_tr o n NS Hn s Hs) as (i & j & Hi & Hj & Es). destruct (tj_model _ _ _ _ _ _ _ _ _ _ _ _ _ _ TJ i j Hi Hj) as (L & ds & di & sd & out & HL & HD & HI & E & D1 & D2 & D3). rewrite stage_tr, <- Es in *.
  destruct (ten_keys ds (proj1 HD)) as (t & nn & eta & car & ->). destruct (seven_keys di (proj1 HI)) as (u & kk & hh & ->). unfold fwd in E.
  destruct (race_sem _ _ _ _ _ _ _ _ _ RZ t nn eta car u kk hh) as (out' & E' & _ & EO). rewrite E' in E. injection E as <- ->. clear E'. set (r := vehicle_forward v aero tire car u) in *.
  set (acc := {| vx := d_vx r; vy := d_vy r; yaw_rate := d_yaw_rate r; wheel_speed := d_wheel_speed r |}).
  set (m := {| at_t := t; at_n := nn; at_eta := eta; at_car := car; at_driver := u; at_curv := kk; at_head := hh; at_acc := acc; at_ratio := o_slip_ratio r; at_angle := o_slip_angle r |}).
  assert (forall nm a, In (nm, a) (state_list m) -> val o x "states" nm s a) as VS.
  { apply all_in. destruct HD as [_ HD]. repeat (apply Forall_cons; [apply HD; reflexivity|]). constructor. }
  assert (forall nm a, In (nm, a) (input_list m) -> val o x "inputs" nm s a) as VI.
  { apply all_in. destruct HI as [_ HI]. repeat (apply Forall_cons; [apply HI; reflexivity|]). constructor. }
  assert (forall nm a, In (nm, a) (slip_list m) -> val o x "con_outputs" nm s a) as VO.
  { assert (forall nm w, In (prefixed "vehicle" nm) usual_outputs -> dget nm (veh_out r) = Some w -> val o x "con_outputs" (prefixed "vehicle" nm) s w) as K.
    { intros nm w Hin Hw. destruct (D2 _ Hin) as (w' & W1 & W2). rewrite (EO nm w Hw) in W1. injection W1 as ->. exact W2. }
    apply all_in. apply Forall_cons; [apply (K "slip_ratio_fl"); [cbn; tauto|reflexivity]|]. apply Forall_cons; [apply (K "slip_ratio_fr"); [cbn; tauto|reflexivity]|]. apply Forall_cons; [apply (K "slip_ratio_rl"); [cbn; tauto|reflexivity]|]. apply Forall_cons; [apply (K "slip_ratio_rr"); [cbn; tauto|reflexivity]|].
    apply Forall_cons; [apply (K "slip_angle_fl"); [cbn; tauto|reflexivity]|]. apply Forall_cons; [apply (K "slip_angle_fr"); [cbn; tauto|reflexivity]|]. apply Forall_cons; [apply (K "slip_angle_rl"); [cbn; tauto|reflexivity]|]. apply Forall_cons; [apply (K "slip_angle_rr"); [cbn; tauto|reflexivity]|]. constructor. }
  assert (within m) as WI.
  { assert (forall nm a l u, In (nm, a) (state_list m) -> In nm st -> In ("states", nm, l, u) plain_limits -> ele l a /\ ege u a) as BS by (intros nm a l0 u0 H1 H2 H3; apply (bound_at x "states" nm s a l0 u0 TJ); auto; left; auto).
    assert (forall nm a l u, In (nm, a) (input_list m) -> In nm inp -> In ("inputs", nm, l, u) plain_limits -> ele l a /\ ege u a) as BI by (intros nm a l0 u0 H1 H2 H3; apply (bound_at x "inputs" nm s a l0 u0 TJ); auto; right; left; auto).
    assert (forall nm a l u, In (nm, a) (slip_list m) -> In nm usual_outputs -> In ("con_outputs", nm, l, u) plain_limits -> ele l a /\ ege u a) as BO by (intros nm a l0 u0 H1 H2 H3; apply (bound_at x "con_outputs" nm s a l0 u0 TJ); auto; right; right; left; auto).
    clear - BS BI BO. unfold within.
    split; [destruct (BS "eta" (at_eta m) (Fin (- PI / 4)) (Fin (PI / 4))) as [A1 A2]; [cbn; tauto ..|]; cbn [ele ege] in *; lra|].
    split; [destruct (BS "vx" (vx (at_car m)) (Fin 5) (Fin 100)) as [A1 A2]; [cbn; tauto ..|]; cbn [ele ege] in *; lra|].
    split; [destruct (BS "vy" (vy (at_car m)) (Fin (-10)) (Fin 10)) as [A1 A2]; [cbn; tauto ..|]; cbn [ele ege] in *; lra|].
    split; [destruct (BS "yaw_rate" (yaw_rate (at_car m)) (Fin (- PI * 2)) (Fin (PI * 2))) as [A1 A2]; [cbn; tauto ..|]; cbn [ele ege] in *; lra|].
    split; [destruct (BI "throttle" (throttle (at_driver m)) (Fin 0) (Fin 1)) as [A1 A2]; [cbn; tauto ..|]; cbn [ele ege] in *; lra|].
    split; [destruct (BI "brake" (brake (at_driver m)) (Fin 0) (Fin 1)) as [A1 A2]; [cbn; tauto ..|]; cbn [ele ege] in *; lra|].
    split; [destruct (BI "steer" (steer (at_driver m)) (Fin (-1)) (Fin 1)) as [A1 A2]; [cbn; tauto ..|]; cbn [ele ege] in *; lra|].
    intro c. assert (In (at_corner "wheel_speed_" c, wheel_speed (at_car m) c) (state_list m) /\ In (at_corner "vehicle.slip_ratio_" c, at_ratio m c) (slip_list m) /\ In (at_corner "vehicle.slip_angle_" c, at_angle m c) (slip_list m)) as (I1 & I2 & I3) by (destruct c; cbn; tauto).
    destruct (BS _ _ (Fin (1 / 10)) (Fin 300) I1) as [A1 A2]; [destruct c; cbn; tauto ..|]. destruct (BO _ _ (Fin (- (5 / 100))) (Fin (5 / 100)) I2) as [A3 A4]; [destruct c; cbn; tauto ..|]. destruct (BO _ _ (Fin (- (5 * PI / 180))) (Fin (5 * PI / 180)) I3) as [A5 A6]; [destruct c; cbn; tauto ..|].
    cbn [ele ege] in *. lra. }
  assert (mechanics v aero tire m) as ME.
  { assert (forall c, 1 / 10 <= wheel_speed (at_car m) c) as WS by (intro c; destruct WI as (_ & _ & _ & _ & _ & _ & _ & WI); apply (WI c)). apply mechanics_iff; [now apply sensible_sane|pose proof (WS rl); pose proof (WS rr); lra|].
    unfold computed, m, acc. cbn [at_acc at_car at_driver at_ratio at_angle vx vy yaw_rate wheel_speed]. fold r. repeat (split; [reflexivity|]). split; [|].
    - pose proof (D3 "vehicle.res_ax" (or_introl eq_refl)) as K. change "vehicle.res_ax" with (prefixed "vehicle" "res_ax") in K. rewrite (EO "res_ax" _ eq_refl) in K. now injection K.
    - pose proof (D3 "vehicle.res_ay" (or_intror (or_introl eq_refl))) as K. change "vehicle.res_ay" with (prefixed "vehicle" "res_ay") in K. rewrite (EO "res_ay" _ eq_refl) in K. now injection K. }
  assert (on_road s m) as RO.
  { destruct (HR s Hs) as (k & h & lf & rt & RA & X1 & X2 & X3). exists lf, rt.
    assert (forall g nm a, known_var st inp usual_outputs (Some (road_length f)) g nm -> val o x g nm s a -> ele (fst (expected (oc_op o) B C g nm s)) a /\ ege (snd (expected (oc_op o) B C g nm s)) a) as BD.
    { intros g nm a HK V. destruct (tj_bounds _ _ _ _ _ _ _ _ _ _ _ _ _ _ TJ g nm s HK) as (w & W & W1 & W2); [cbn; lia|]. rewrite (val_fun _ _ _ _ _ _ _ V W). auto. }
    destruct (BD "inputs" "track_curvature" kk) as [Y1 Y2]; [right; left; cbn; tauto|apply VI; cbn; tauto|]. destruct (BD "inputs" "track_heading" hh) as [Y3 Y4]; [right; left; cbn; tauto|apply VI; cbn; tauto|]. destruct (BD "states" "n" nn) as [Y5 Y6]; [left; cbn; tauto|apply VS; cbn; tauto|].
    rewrite X1 in Y1, Y2. rewrite X2 in Y3, Y4. rewrite X3 in Y5, Y6. cbn [fst snd ele ege] in Y1, Y2, Y3, Y4, Y5, Y6. cbn [m at_curv at_head at_n]. assert (kk = k) as -> by lra. assert (hh = h) as -> by lra. split; [exact RA|lra]. }
  exists m. destruct RO as (lf & rt & RA & RN). destruct (computed_regular v aero tire f _ lf rt m SE GE RA RN WI ME) as [RG SP].
  assert (forall nm a, In (nm, a) (per_metre m) -> val o x "states_dot" nm s a) as VD.
  { assert (forall nm a b, In nm st -> dget nm (dot10 nn eta kk car r) = Some b -> a = b -> val o x "states_dot" nm s a) as K. { intros nm a b H1 H2 ->. destruct (D1 nm H1) as (w & W1 & W2). rewrite H2 in W1. injection W1 as ->. exact W2. }
    assert (road_speed nn eta kk car = along_road m) as ER by reflexivity. unfold dot10 in K. rewrite ER in K. apply all_in. unfold per_metre. set (sp := along_road m) in *.
    apply Forall_cons; [eapply K; [cbn; tauto|reflexivity|reflexivity]|]. apply Forall_cons; [eapply K; [cbn; tauto|reflexivity|reflexivity]|]. apply Forall_cons; [eapply K; [cbn; tauto|reflexivity|cbn [fst snd m at_car at_curv]; field; lra]|].
    repeat (apply Forall_cons; [eapply K; [cbn; tauto|reflexivity|cbn [fst snd m at_car at_acc acc vx vy yaw_rate wheel_speed]; field; lra]|]). constructor. }
  split; [split; [exact VS|split; [exact VI|split; [exact VD|exact VO]]]|]. split; [exact ME|]. split; [exists lf, rt; auto|]. split; [exact WI|].
  destruct (tj_bounds _ _ _ _ _ _ _ _ _ _ _ _ _ _ TJ "states" "time" s) as (w & W & W1 & W2); [left; cbn; tauto|cbn; lia|]. rewrite HO in W1, W2 by reflexivity. unfold C in W1, W2. rewrite (exp_time _ _ NS s Hs) in W1, W2.
  assert (w = at_t m) as -> by (apply (val_fun _ _ _ _ _ _ _ W); apply VS; cbn; tauto). destruct (Nat.eqb_spec s 0); cbn [fst snd ele ege] in W1, W2; split; intros; try lra. lia.
Qed.

Lemma state_names : forall m, map fst (state_list m) = st. Proof using. reflexivity. Qed.
Lemma rate_names : forall m, map fst (per_metre m) = st. Proof using. reflexivity. Qed.
Lemma input_names : forall m, map fst (input_list m) = inp. Proof using. reflexivity. Qed.
Lemma slip_names : forall m, map fst (slip_list m) = usual_outputs. Proof using. reflexivity. Qed.
Lemma named : forall (l : list (string * R)) nm, In nm (map fst l) -> exists a, In (nm, a) l.
Proof using. clear. intros l nm H. apply in_map_iff in H. destruct H as ([k a] & <- & H). now exists a. Qed.
Lemma pair_of : forall g nm, In (g, nm) (cyclic_pairs st inp ["states.time"; "inputs.track_heading"]) <-> (g = "states" /\ In nm st /\ nm <> "time") \/ (g = "inputs" /\ In nm inp /\ nm <> "track_heading").
Proof using.
  clear. intros g nm. split.
  - intro H. cbn in H. repeat (destruct H as [H|H]; [injection H as <- <-; cbn; first [left; split; [reflexivity|split; [tauto|discriminate]]|right; split; [reflexivity|split; [tauto|discriminate]]]|]). contradiction.
  - intros [(-> & H & N)|(-> & H & N)]; cbn in H; repeat (destruct H as [<-|H]; [cbn; tauto|]); contradiction.
Qed.
Lemma move_eq : forall x i nm a a' r r', traj x -> (i < n)%nat -> In nm st -> val o x "states" nm i a -> val o x "states" nm (S i) a' -> val o x "states_dot" nm i r -> val o x "states_dot" nm (S i) r' ->
  a' - a = (nth (S i) pl 0 - nth i pl 0) * road_length f * ((r + r') / 2).
Proof using.
  clear. intros x i nm a a' r r' TJ Hi Hnm V1 V2 V3 V4. destruct (tj_continuity _ _ _ _ _ _ _ _ _ _ _ _ _ _ TJ i 0%nat nm Hi ltac:(cbn; lia) Hnm) as (L & X & D & HL & VX & E). cbn in HL. subst L.
  destruct (VX 0%nat) as [A0 B0]; [cbn; lia|]. destruct (VX 1%nat) as [A1 B1]; [cbn; lia|]. rewrite stage_tr in *. rewrite Nat.add_0_r in A0, B0. rewrite Nat.add_1_r in A1, B1.
  rewrite (val_fun _ _ _ _ _ _ _ V1 A0), (val_fun _ _ _ _ _ _ _ V2 A1), (val_fun _ _ _ _ _ _ _ V3 B0), (val_fun _ _ _ _ _ _ _ V4 B1). cbn in E. unfold interval_length in E. lra.
Qed.

Lemma traj_drive : forall x, traj x -> exists k, logs n o x k /\ drive n pl f cyclic v aero tire k.
Proof using RZ SE GE NS Hn HR HO.
  intros x TJ. destruct (choose moment {| at_t := 0; at_n := 0; at_eta := 0; at_car := {| vx := 0; vy := 0; yaw_rate := 0; wheel_speed := fun _ => 0 |}; at_driver := {| throttle := 0; brake := 0; steer := 0; ax_in := 0; ay_in := 0 |}; at_curv := 0; at_head := 0;
    at_acc := {| vx := 0; vy := 0; yaw_rate := 0; wheel_speed := fun _ => 0 |}; at_ratio := fun _ => 0; at_angle := fun _ => 0 |} _ n (fun s Hs => stage_of_traj x s TJ Hs)) as (k & Hk).
  assert (logs n o x k) as LG. { constructor; [exact (tj_len _ _ _ _ _ _ _ _ _ _ _ _ _ _ TJ)| | | |]; intros s nm a Hs; destruct (Hk s Hs) as ((H1 & H2 & H3 & H4) & _); auto. }
  exists k. split; [exact LG|]. constructor.
  - intros s Hs. apply (Hk s Hs).
  - intros i nm a a' r r' Hi I1 I2 I3 I4. apply (move_eq x i nm a a' r r' TJ Hi).
    + rewrite <- (state_names (k i)). apply (in_map fst _ _ I1).
    + apply (lg_state _ _ _ _ LG); [lia|exact I1].
    + apply (lg_state _ _ _ _ LG); [lia|exact I2].
    + apply (lg_rate _ _ _ _ LG); [lia|exact I3].
    + apply (lg_rate _ _ _ _ LG); [lia|exact I4].
  - intros s Hs. apply (Hk s Hs).
  - intros s Hs m. destruct (Hk s Hs) as (_ & _ & _ & W & T & _). split; [exact T|exact W].
  - destruct (Hk 0%nat ltac:(lia)) as (_ & _ & _ & _ & _ & T). now apply T.
  - intro EC. pose proof (tj_cyclic _ _ _ _ _ _ _ _ _ _ _ _ _ _ TJ) as TC. unfold cyc in TC. rewrite EC in TC. specialize (TC (cyclic_pairs st inp ["states.time"; "inputs.track_heading"])).
    assert (n * (t_stages trapezoidal - 1) = n)%nat as EN by (cbn; lia). rewrite EN in TC.
    split; intros nm a N I1.
    + assert (In nm st) as Hnm by (rewrite <- (state_names (k 0%nat)); apply (in_map fst _ _ I1)). destruct (TC "states" nm eq_refl ltac:(apply pair_of; left; auto)) as (w & W1 & W2).
      pose proof (lg_state _ _ _ _ LG 0%nat nm a ltac:(lia) I1) as V. rewrite <- (state_names (k n)) in Hnm. destruct (named _ _ Hnm) as (a' & I2). pose proof (lg_state _ _ _ _ LG n nm a' ltac:(lia) I2) as V'.
      rewrite (val_fun _ _ _ _ _ _ _ V W1), <- (val_fun _ _ _ _ _ _ _ V' W2). exact I2.
    + assert (In nm inp) as Hnm by (rewrite <- (input_names (k 0%nat)); apply (in_map fst _ _ I1)). destruct (TC "inputs" nm eq_refl ltac:(apply pair_of; right; auto)) as (w & W1 & W2).
      pose proof (lg_input _ _ _ _ LG 0%nat nm a ltac:(lia) I1) as V. rewrite <- (input_names (k n)) in Hnm. destruct (named _ _ Hnm) as (a' & I2). pose proof (lg_input _ _ _ _ LG n nm a' ltac:(lia) I2) as V'.
      rewrite (val_fun _ _ _ _ _ _ _ V W1), <- (val_fun _ _ _ _ _ _ _ V' W2). exact I2.
Qed.

Lemma drive_regular : forall k s, drive n pl f cyclic v aero tire k -> (s <= n)%nat -> regular v (k s) /\ 0 < along_road (k s).
Proof using SE GE.
  clear RZ HR HO. intros k s DR Hs. destruct (dr_road _ _ _ _ _ _ _ _ DR s Hs) as (l & r & RA & RN). eapply computed_regular; [exact SE|exact GE|exact RA|exact RN|apply (dr_limits _ _ _ _ _ _ _ _ DR s Hs)|apply (dr_mechanics _ _ _ _ _ _ _ _ DR s Hs)].
Qed.
Lemma drive_traj : forall x k, logs n o x k -> drive n pl f cyclic v aero tire k -> traj x.
Proof using RZ SE GE DV NS Hn HR HO.
  intros x k LG DR. constructor.
  - apply (lg_len _ _ _ _ LG).
  - intros i j Hi Hj s. assert (s <= n)%nat as Hs by (unfold s; rewrite stage_tr; cbn in Hj; lia). clearbody s. set (m := k s).
    destruct (race_sem _ _ _ _ _ _ _ _ _ RZ (at_t m) (at_n m) (at_eta m) (at_car m) (at_driver m) (at_curv m) (at_head m)) as (out & E & IO & EO).
    destruct (drive_regular k s DR Hs) as [_ SP]. fold m in SP.
    assert (computed v aero tire m) as (C1 & C2 & C3 & C4 & C5 & C6 & C7 & C8).
    { apply mechanics_iff; [now apply sensible_sane| |apply (dr_mechanics _ _ _ _ _ _ _ _ DR s Hs)]. destruct (dr_limits _ _ _ _ _ _ _ _ DR s Hs) as (_ & _ & _ & _ & _ & _ & _ & _ & WS). pose proof (WS rl). pose proof (WS rr). fold m in H, H0. lra. }
    exists (road_length f), (st10 (at_t m) (at_n m) (at_eta m) (at_car m)), (in7 (at_driver m) (at_curv m) (at_head m)). eexists. eexists. split; [reflexivity|]. split; [|split; [|split; [exact E|split; [|split]]]].
    + split; [reflexivity|]. intros nm a Ha. apply (lg_state _ _ _ _ LG s nm a Hs). exact (dget_in _ _ _ _ Ha).
    + split; [reflexivity|]. intros nm a Ha. apply (lg_input _ _ _ _ LG s nm a Hs). exact (dget_in _ _ _ _ Ha).
    + assert (forall nm a b, In (nm, a) (per_metre m) -> dget nm (dot10 (at_n m) (at_eta m) (at_curv m) (at_car m) (vehicle_forward v aero tire (at_car m) (at_driver m))) = Some b -> a = b ->
        exists w, dget nm (dot10 (at_n m) (at_eta m) (at_curv m) (at_car m) (vehicle_forward v aero tire (at_car m) (at_driver m))) = Some w /\ val o x "states_dot" nm s w) as K.
      { intros nm a b H1 H2 <-. exists a. split; [exact H2|]. apply (lg_rate _ _ _ _ LG s nm a Hs H1). }
      assert (road_speed (at_n m) (at_eta m) (at_curv m) (at_car m) = along_road m) as ER by reflexivity. unfold dot10 in *. rewrite ER in *. unfold per_metre in K. rewrite C1, C2, C3, !C4 in K. set (sp := along_road m) in *.
      intros nm H. cbn [st kin_states veh_states app In] in H.
      repeat (destruct H as [<-|H]; [eapply K; [cbn [In]; eauto 20|reflexivity|cbn [fst snd]; field; lra]|]). contradiction.
    + assert (forall nm w, dget nm (veh_out (vehicle_forward v aero tire (at_car m) (at_driver m))) = Some w -> In (prefixed "vehicle" nm, w) (slip_list m) -> exists w, dget (prefixed "vehicle" nm) out = Some w /\ val o x "con_outputs" (prefixed "vehicle" nm) s w) as K.
      { intros nm w H1 H2. exists w. split; [now apply EO|]. now apply (lg_slip _ _ _ _ LG s _ w Hs). }
      unfold slip_list in K. rewrite !C5, !C6 in K. intros nm H. cbn [usual_outputs In] in H.
      repeat (destruct H as [<-|H]; [match goal with |- exists w, dget ?s _ = _ /\ _ => apply (K (String.substring 8 (String.length s) s) _ eq_refl) end; cbn; tauto|]). contradiction.
    + intros nm [<-|[<-|[]]].
      * change "vehicle.res_ax" with (prefixed "vehicle" "res_ax"). apply EO. rewrite <- C7. reflexivity.
      * change "vehicle.res_ay" with (prefixed "vehicle" "res_ay"). apply EO. rewrite <- C8. reflexivity.
  - intros i kk nm Hi Hkk Hnm. cbn in Hkk. assert (kk = 0)%nat as -> by lia.
    assert (forall s, exists a, In (nm, a) (state_list (k s))) as NA. { intro s. apply named. now rewrite state_names. }
    assert (forall s, exists a, In (nm, a) (per_metre (k s))) as NR. { intro s. apply named. now rewrite rate_names. }
    destruct (NA i) as (a & A). destruct (NA (S i)) as (a' & A'). destruct (NR i) as (r & R1). destruct (NR (S i)) as (r' & R'). pose proof (dr_moves _ _ _ _ _ _ _ _ DR i nm a a' r r' Hi A A' R1 R') as E.
    exists (road_length f), (fun j => match j with O => a | _ => a' end), (fun j => match j with O => r | _ => r' end). split; [reflexivity|]. split.
    + intros j Hj. cbn in Hj. rewrite stage_tr. destruct j as [|[|j]]; [rewrite Nat.add_0_r|rewrite Nat.add_1_r|lia]; (split; [apply (lg_state _ _ _ _ LG); [lia|assumption]|apply (lg_rate _ _ _ _ LG); [lia|assumption]]).
    + cbn. unfold interval_length. lra.
  - intros pairs g nm EP Hin. unfold cyc in EP. destruct cyclic eqn:EC; [|discriminate]. injection EP as <-. assert (n * (t_stages trapezoidal - 1) = n)%nat as -> by (cbn; lia). destruct (dr_cyclic _ _ _ _ _ _ _ _ DR eq_refl) as [D1 D2].
    apply pair_of in Hin. destruct Hin as [(-> & Hnm & N)|(-> & Hnm & N)].
    + rewrite <- (state_names (k 0%nat)) in Hnm. destruct (named _ _ Hnm) as (a & I1). exists a. split; apply (lg_state _ _ _ _ LG); auto; lia.
    + rewrite <- (input_names (k 0%nat)) in Hnm. destruct (named _ _ Hnm) as (a & I1). exists a. split; apply (lg_input _ _ _ _ LG); auto; lia.
  - intros g nm s HK Hs0. assert (s <= n)%nat as Hs by (cbn in Hs0; lia). clear Hs0. destruct (dr_limits _ _ _ _ _ _ _ _ DR s Hs) as (T0 & L1 & L2 & L3 & L4 & L5 & L6 & L7 & L8). destruct (dr_road _ _ _ _ _ _ _ _ DR s Hs) as (lf & rt & RA & RN).
    destruct (HR s Hs) as (k0 & h0 & lf0 & rt0 & RA0 & X1 & X2 & X3). destruct (road_unique f _ _ _ _ _ _ _ _ _ DV RA RA0) as (<- & <- & <- & <-). set (m := k s) in *.
    pose proof (L8 fl) as Wfl. pose proof (L8 fr) as Wfr. pose proof (L8 rl) as Wrl. pose proof (L8 rr) as Wrr.
    destruct HK as [[[-> | ->] Hnm]|[[-> Hnm]|[[-> Hnm]|(_ & K & _)]]]; [| | | |discriminate].
    + pose proof (lg_state _ _ _ _ LG s) as V. fold m in V. assert (forall a l u, In (nm, a) (state_list m) -> expected (oc_op o) B C "states" nm s = (l, u) -> ele l a -> ege u a -> exists v, val o x "states" nm s v /\ ele (fst (expected (oc_op o) B C "states" nm s)) v /\ ege (snd (expected (oc_op o) B C "states" nm s)) v) as K.
      { intros a l u I1 E A1 A2. exists a. rewrite E. split; [now apply V|auto]. }
      cbn [st kin_states veh_states app In] in Hnm. destruct Hnm as [<-|[<-|Hnm]].
      * rewrite HO in K by reflexivity. unfold C in K. rewrite (exp_time _ _ NS s Hs) in K. rewrite HO by reflexivity. unfold C. rewrite (exp_time _ _ NS s Hs). pose proof (dr_start _ _ _ _ _ _ _ _ DR) as D0.
        destruct (Nat.eqb_spec s 0) as [->|N]; eapply K; try reflexivity; try (cbn; tauto); cbn [ele ege]; try exact I; try exact T0; fold m in D0; change (at_t (k 0%nat)) with (at_t m) in D0; lra.
      * eapply K; [cbn; tauto|exact X3| |]; cbn [ele ege]; lra.
      * assert (forall a l u, In (nm, a) (state_list m) -> forallb (fun e => negb (String.eqb e (svname "states" nm))) ["inputs.track_curvature"; "inputs.track_heading"; "states.n"] = true -> In ("states", nm, l, u) plain_limits -> ele l a -> ege u a ->
          exists v, val o x "states" nm s v /\ ele (fst (expected (oc_op o) B C "states" nm s)) v /\ ege (snd (expected (oc_op o) B C "states" nm s)) v) as K2.
        { intros a l u I1 I2 I3. apply K; [exact I1|]. rewrite HO by exact I2. unfold C. now apply exp_plain. }
        clear K V X1 X2 X3 HR HO. repeat (destruct Hnm as [<-|Hnm]; [eapply K2; [cbn [state_list In]; eauto 20|reflexivity|cbn [plain_limits usual_bounds filter String.eqb Ascii.eqb Bool.eqb negb In]; eauto 30| |]; cbn [ele ege]; lra|]). contradiction.
    + rewrite <- (rate_names m) in Hnm. destruct (named _ _ Hnm) as (a & I1). exists a. split; [now apply (lg_rate _ _ _ _ LG)|]. rewrite rate_names in Hnm. rewrite HO; [|clear - Hnm; cbn in Hnm; repeat (destruct Hnm as [<-|Hnm]; [reflexivity|]); contradiction]. unfold C. rewrite exp_dots by exact Hnm. split; exact I.
    + pose proof (lg_input _ _ _ _ LG s) as V. fold m in V. assert (forall a l u, In (nm, a) (input_list m) -> expected (oc_op o) B C "inputs" nm s = (l, u) -> ele l a -> ege u a -> exists v, val o x "inputs" nm s v /\ ele (fst (expected (oc_op o) B C "inputs" nm s)) v /\ ege (snd (expected (oc_op o) B C "inputs" nm s)) v) as K.
      { intros a l u I1 E A1 A2. exists a. rewrite E. split; [now apply V|auto]. }
      assert (forall a l u, In (nm, a) (input_list m) -> forallb (fun e => negb (String.eqb e (svname "inputs" nm))) ["inputs.track_curvature"; "inputs.track_heading"; "states.n"] = true -> expected (oc_op o) (map of_bound default_bounds) C "inputs" nm s = (l, u) -> ele l a -> ege u a ->
          exists v, val o x "inputs" nm s v /\ ele (fst (expected (oc_op o) B C "inputs" nm s)) v /\ ege (snd (expected (oc_op o) B C "inputs" nm s)) v) as K2.
      { intros a l u I1 I2 I3. apply K; [exact I1|]. rewrite HO by exact I2. exact I3. }
      unfold C in K2. cbn [inp veh_inputs app In] in Hnm. destruct Hnm as [<-|[<-|[<-|[<-|[<-|[<-|[<-|[]]]]]]]].
      * eapply K2; [cbn; tauto|reflexivity|apply exp_plain; cbn; tauto| |]; cbn [ele ege]; lra.
      * eapply K2; [cbn; tauto|reflexivity|apply exp_plain; cbn; tauto| |]; cbn [ele ege]; lra.
      * eapply K2; [cbn; tauto|reflexivity|apply exp_plain; cbn; tauto| |]; cbn [ele ege]; lra.
      * eapply K2; [cbn; tauto|reflexivity|apply exp_axy|exact I|exact I].
      * eapply K2; [cbn; tauto|reflexivity|apply exp_axy|exact I|exact I].
      * eapply K; [cbn; tauto|exact X1| |]; cbn [ele ege]; lra.
      * eapply K; [cbn; tauto|exact X2| |]; cbn [ele ege]; lra.
    + pose proof (lg_slip _ _ _ _ LG s) as V. fold m in V. assert (forall a l u, In (nm, a) (slip_list m) -> forallb (fun e => negb (String.eqb e (svname "con_outputs" nm))) ["inputs.track_curvature"; "inputs.track_heading"; "states.n"] = true -> In ("con_outputs", nm, l, u) plain_limits -> ele l a -> ege u a ->
          exists v, val o x "con_outputs" nm s v /\ ele (fst (expected (oc_op o) B C "con_outputs" nm s)) v /\ ege (snd (expected (oc_op o) B C "con_outputs" nm s)) v) as K2.
      { intros a l u I1 I2 I3 A1 A2. exists a. rewrite HO by exact I2. unfold C. rewrite (exp_plain _ "con_outputs" nm l u s I3). split; [now apply V|auto]. }
      clear V X1 X2 X3 HR HO. cbn [usual_outputs In] in Hnm. repeat (destruct Hnm as [<-|Hnm]; [eapply K2; [cbn [slip_list In]; eauto 20|reflexivity|cbn [plain_limits usual_bounds filter String.eqb Ascii.eqb Bool.eqb negb In]; eauto 30| |]; cbn [ele ege]; lra|]). contradiction.
Qed.
End Laps.
