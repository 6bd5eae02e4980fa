(** C54: an example: the default vehicle with Perantoni tires and constant aero coefficients coasts along a straight road. *)
From Verif Require Import Base RBase TreeModel UtilsModel IoModel CollocModel CollocProofs CollocProps MeshModel MeshProps OcpModel OcpSpec OcpProofs OcpProps BoundModel BoundSpec ScaleModel ScaleSpec OcpProofs2
  BuildModel BuildSpec BuildProps2 VehModel VehSpec KinModel TrackModel TrackSpec TrackProofs TrackProps2 TrackProps4 LapModel LapSpec LapProofs LapProps LapProps2 LapProps4 LapProps5 TireModel AeroModel RaceModel RaceProofs RaceSpec RaceProofs2 RaceProofs4 RaceProofs6 RaceProps RaceProps2.

(** a straight road of 100 m, 3 m to either side *)
Definition straight : track_file := {| tf_x := [0; 100]; tf_y := [0; 0]; tf_left := [3; 3]; tf_right := [3; 3] |}.
Lemma straight_drivable : drivable straight.
Proof.
  constructor; cbn [straight tf_x tf_y tf_left tf_right]; try reflexivity.
  - split; [cbn; lia|]. split; [reflexivity|]. intros [|i] Hi; [left; cbn; lra|cbn in Hi; lia].
  - intros i Hi. cbn in Hi. lia.
  - intros [|[|i]] Hi; [cbn; lra ..|cbn in Hi; lia].
Qed.
Lemma dist100 : pdist 0 0 100 0 = 100.
Proof. unfold pdist. replace ((100 - 0) * (100 - 0) + (0 - 0) * (0 - 0)) with (100 * 100) by ring. apply sqrt_square. lra. Qed.
Lemma straight_length : road_length straight = 100.
Proof. unfold road_length. cbn [straight tf_x tf_y List.length seq map Nat.sub nth rsum fold_right]. rewrite dist100. cbn. ring. Qed.
Lemma straight_at : forall d c h l r, road_at straight d c h l r -> c = 0 /\ h = 0 /\ l = 3 /\ r = 3.
Proof.
  intros d c h l r (s & k & hd & CV & P1 & P2 & P3 & P4). destruct CV as (Ls & Lk & Lh & Z0 & D & (x1 & y1 & x2 & y2 & X1 & Y1 & X2 & Y2 & K) & C0 & S0 & B0 & HI). cbn [straight tf_x tf_y List.length] in *.
  assert (vget 1 s = 100) as S1. { pose proof (D 0%nat ltac:(lia)) as E. unfold vget in E at 3 4 5 6. cbn [nth] in E. rewrite dist100 in E. lra. }
  destruct Y1 as (L1 & E0 & E1 & _). rewrite Ls in *. cbn [Nat.sub] in E1. rewrite Z0, S1 in *. unfold vget in E0 at 2 3. unfold vget in E1 at 2 3. cbn [nth] in E0, E1.
  destruct Y2 as (L2 & F0 & F1 & _). rewrite Ls in *. cbn [Nat.sub] in F1. rewrite Z0, S1 in *.
  assert (forall i, (i < 2)%nat -> vget i k = 0) as K0.
  { intros i Hi. destruct (K i Hi) as [V E]. assert (vget i y1 = 0 /\ vget i y2 = 0) as [W1 W2] by (destruct i as [|[|i]]; [split; lra ..|lia]). rewrite W1, W2 in E. rewrite W1 in V.
    replace (vget i x1 * 0 - vget i x2 * 0) with 0 in E by ring. apply Rmult_integral in E. destruct E as [E|E]; [exact E|]. pose proof (Rmult_lt_0_compat _ _ (Rmult_lt_0_compat _ _ V V) V). lra. }
  assert (vget 0 hd = 0) as H0.
  { unfold vget in C0 at 2 3 4 5 6 7. unfold vget in S0 at 2 3 4 5 6 7. cbn [nth] in C0, S0. rewrite dist100 in C0, S0. assert (cos (vget 0 hd) = 1) as C by lra. assert (sin (vget 0 hd) = 0) as SS by lra.
    set (x := vget 0 hd) in *. destruct (Rtotal_order x 0) as [L|[L|L]]; [|exact L|].
    - assert (0 < sin (- x)) by (apply sin_gt_0; lra). rewrite sin_neg in H. lra.
    - destruct (Req_dec x PI) as [->|N]; [rewrite cos_PI in C; lra|]. assert (0 < sin x) by (apply sin_gt_0; lra). lra. }
  assert (vget 1 hd = 0) as H1. { pose proof (HI 0%nat ltac:(lia)) as E. rewrite (K0 0%nat ltac:(lia)), (K0 1%nat ltac:(lia)) in E. lra. }
  assert (forall fp y a, vget 0 fp = a -> vget 1 fp = a -> piecewise_linear s fp d y -> y = a) as PL.
  { intros fp y a A0 A1 (Q0 & Q1 & Q2). rewrite Ls in *. cbn [Nat.sub] in Q1. destruct (Rle_lt_dec d 0) as [Hd|Hd]; [rewrite Q0; lra|]. destruct (Rle_lt_dec 100 d) as [Hd'|Hd']; [rewrite Q1; lra|].
    pose proof (Q2 0%nat ltac:(lia) ltac:(lra)) as E. rewrite Z0, S1, A0, A1 in E. lra. }
  split; [apply (PL k); [apply K0; lia|apply K0; lia|exact P1]|]. split; [apply (PL hd); auto|]. split; [apply (PL [3; 3]); auto|apply (PL [3; 3]); auto].
Qed.
Lemma straight_gentle : gentle straight.
Proof. intros d c h l r H. apply straight_at in H. destruct H as (-> & _ & -> & ->). lra. Qed.
Lemma straight_some : forall d, road_at straight d 0 0 3 3.
Proof.
  intro d. assert (exists c h l r, road_at straight d c h l r) as (c & h & l & r & H).
  { destruct straight_drivable as [A B _ _ _]. destruct (TrackProps4.C45_curvilinear _ _ A B) as (s & k & h & _ & CV). pose proof CV as (Ls & Lk & Lh & Z0 & D & _). cbn [straight tf_x tf_y List.length] in Ls, Lk, Lh, D.
    assert (grid s) as G. { split; [rewrite Ls; lia|]. rewrite Ls. intros [|i] Hi; [|lia]. specialize (D 0%nat Hi). unfold vget in D at 3 4 5 6. cbn [nth] in D. rewrite dist100 in D. lra. }
    destruct (TrackProofs.np_interp_ok d s k G ltac:(congruence)) as (y1 & _ & Q1). destruct (TrackProofs.np_interp_ok d s h G ltac:(congruence)) as (y2 & _ & Q2).
    destruct (TrackProofs.np_interp_ok d s [3; 3] G ltac:(now rewrite Ls)) as (y3 & _ & Q3). exists y1, y2, y3, y3, s, k, h. auto. }
  destruct (straight_at _ _ _ _ _ H) as (-> & -> & -> & ->). exact H.
Qed.

(** the submodels: what PerantoniTire and ConstAero return; the parameters of the whole model are those of the car, of the tires and of the aero model *)
Definition ex_q : Type := (vparams * tparams * dict R)%type.
Definition ex_tire_out : list string := ["Fx"; "Fy"; "Mx"; "My"; "Mz"].
Definition ex_tire (q : ex_q) (c : corner) (d : dict R) : result (dict R) :=
  bind (lookup_err "Fz" d) (fun Fz => bind (lookup_err "kappa" d) (fun kappa => bind (lookup_err "alpha" d) (fun alpha => bind (lookup_err "vx" d) (fun vx => bind (lookup_err "gamma" d) (fun gamma =>
  let r := perantoni (snd (fst q)) Fz kappa alpha vx gamma in Ok [("Fx", Fx r); ("Fy", Fy r); ("Mx", Mx r); ("My", My r); ("Mz", Mz r)]))))).
Definition ex_coeff (q : ex_q) (nm : string) : R := match dget nm (snd q) with Some r => r | None => 0 end.
Definition ex_aero (q : ex_q) (d : dict R) : result (dict R) := const_aero [("Cx", ex_coeff q "Cx"); ("Cy", ex_coeff q "Cy"); ("Cz", ex_coeff q "Cz")] d.
Definition ex_own (q : ex_q) : dict R := let v := fst (fst q) in
  [("gravity", gravity v); ("vehicle_mass", vehicle_mass v); ("Iz", Iz v); ("cog_to_fa", cog_to_fa v); ("cog_to_ra", cog_to_ra v); ("cog_height", cog_height v); ("mech_balance", mech_balance v); ("track_front", track_front v);
   ("track_rear", track_rear v); ("rolling_radius", rolling_radius v); ("kd", kd v); ("air_density", air_density v); ("max_steer_angle", max_steer_angle v); ("max_power", max_power v);
   ("max_total_brake_torque", max_total_brake_torque v); ("brake_balance", brake_balance v); ("wheel_inertia", wheel_inertia v)].
Definition ex_tire_model (p : tparams) : corner -> tire_model := fun _ Fz kappa alpha vx gamma => let r := perantoni p Fz kappa alpha vx gamma in (Fx r, Fy r).
Lemma ex_realizes : forall q, realizes ex_tire_out aero_outputs ex_tire ex_aero ex_own q (fst (fst q)) (fun _ _ _ => (ex_coeff q "Cx", ex_coeff q "Cz")) (ex_tire_model (snd (fst q))).
Proof.
  intro q. constructor.
  - unfold own_params. repeat split; reflexivity.
  - intros a b c. eexists. split; [reflexivity|]. split; [repeat constructor; cbn; intuition discriminate|]. split; [intros x Hx; cbn in *; tauto|]. split; reflexivity.
  - intros c Fz kappa alpha w gamma. eexists. split; [reflexivity|]. split; [repeat constructor; cbn; intuition discriminate|]. split; [intros x Hx; cbn in *; tauto|]. split; reflexivity.
Qed.
Definition ex_now : ex_q := (default_vehicle, default_tire, [("Cx", 0); ("Cy", 0); ("Cz", 3)]).

(** coasting at 50 m/s in the middle of the road *)
Definition coast (n s : nat) : moment := {| at_t := INR s / INR n * 2; at_n := 0; at_eta := 0; at_car := {| vx := 50; vy := 0; yaw_rate := 0; wheel_speed := fun _ => 50 / (33 / 100) |};
  at_driver := {| throttle := 0; brake := 0; steer := 0; ax_in := 0; ay_in := 0 |}; at_curv := 0; at_head := 0; at_acc := {| vx := 0; vy := 0; yaw_rate := 0; wheel_speed := fun _ => 0 |};
  at_ratio := fun _ => 0; at_angle := fun _ => 0 |}.
Lemma coast_road : forall n s, along_road (coast n s) = 50.
Proof. intros n s. unfold along_road. cbn [coast at_car at_eta at_n at_curv vx vy]. rewrite cos_0, sin_0. field. Qed.
Lemma free_roll : forall p Fz vx gamma, perantoni p Fz 0 0 vx gamma = {| Fx := 0; Fy := 0; Mx := 0; My := 0; Mz := 0 |}.
Proof. intros. unfold perantoni, Rdiv. rewrite !Rmult_0_l, !Rmult_0_r, !Rmult_0_l. reflexivity. Qed.
Lemma coast_mechanics : forall n s, mechanics default_vehicle (fun _ _ _ => (0, 3)) (ex_tire_model default_tire) (coast n s).
Proof.
  intros n s. unfold mechanics. cbv zeta. set (load := (1800 * (981 / 100) + 3 * qdyn default_vehicle (at_car (coast n s))) / 4).
  exists (fun _ => 0), (fun _ => 0), (fun _ => load), 0, 0. cbn [fst snd coast at_car at_driver at_acc at_ratio at_angle vx vy yaw_rate wheel_speed throttle brake steer ax_in ay_in].
  unfold over, px, py, wheel_angle, point_vx, point_vy. cbn [default_vehicle vehicle_mass gravity cog_height cog_to_fa cog_to_ra track_front track_rear mech_balance max_steer_angle rolling_radius max_power kd wheel_inertia Iz vy yaw_rate vx steer].
  split; [unfold load, qdyn; cbn [coast at_car vx vy default_vehicle air_density]; field|]. split; [ring|]. split; [ring|]. split; [ring|]. split; [|split; [ring|]; split; [ring|]; split; [|repeat split; cbn; ring]].
  - intro c. assert (match c with fl | fr => 0 * (PI / 18) | rl | rr => 0 end = 0) as -> by (destruct c; ring). unfold along, across. rewrite cos_0, sin_0. split; [field|]. split; [|].
    + match goal with |- _ = atan (?a / ?b) => replace a with 0 by ring end. unfold Rdiv. rewrite Rmult_0_l. now rewrite atan_0.
    + rewrite !Rmult_0_l. unfold ex_tire_model. rewrite free_roll. cbn [fst snd Fx Fy]. split; [ring|]. ring.
  - intro c. unfold brake_of. cbn [brake]. unfold along. destruct c; ring.
Qed.
Lemma coast_drive : forall n cyclic pl, (1 <= n)%nat -> points_used n None pl -> drive n pl straight cyclic default_vehicle (fun _ _ _ => (0, 3)) (ex_tire_model default_tire) (coast n).
Proof.
  intros n cyclic pl Hn (_ & HP). assert (0 < INR n) as NP by (apply lt_0_INR; lia). pose proof PI2_3_2 as P3. constructor.
  - intros s _. apply coast_mechanics.
  - intros i nm a a' r r' Hi H1 H2 H3 H4. rewrite straight_length. rewrite (HP i) by lia. rewrite (HP (S i)) by lia. unfold per_metre in H3, H4. rewrite coast_road in H3, H4. cbn [coast at_car at_acc at_eta at_curv vx vy yaw_rate wheel_speed] in H3, H4.
    rewrite cos_0, sin_0 in H3, H4. unfold state_list in H1, H2. cbn [coast at_t at_n at_eta at_car vx vy yaw_rate wheel_speed] in H1, H2. cbn [In] in H1, H2, H3, H4. rewrite S_INR in *.
    repeat (destruct H1 as [H1|H1]; [apply pair_equal_spec in H1; destruct H1 as [<- <-]; repeat (destruct H2 as [H2|H2]; [apply pair_equal_spec in H2; destruct H2 as [X <-]; try discriminate X; clear X|]); try contradiction;
      repeat (destruct H3 as [H3|H3]; [apply pair_equal_spec in H3; destruct H3 as [X <-]; try discriminate X; clear X|]); try contradiction;
      repeat (destruct H4 as [H4|H4]; [apply pair_equal_spec in H4; destruct H4 as [X <-]; try discriminate X; clear X|]); try contradiction; field; lra|]). contradiction.
  - intros s Hs. exists 3, 3. cbn [coast at_curv at_head at_n]. split; [apply straight_some|lra].
  - intros s Hs. cbn [coast at_t at_eta at_car at_driver at_ratio at_angle vx vy yaw_rate wheel_speed throttle brake steer]. pose proof (pos_INR s). assert (0 <= INR s / INR n * 2) by (apply Rmult_le_pos; [apply Rmult_le_pos; [lra|left; now apply Rinv_0_lt_compat]|lra]).
    pose proof PI_RGT_0. repeat split; try lra.
  - cbn [coast at_t]. cbn [INR]. unfold Rdiv. ring.
  - intros _. split; intros nm a N H; [|exact H]. destruct H as [H|H]; [apply pair_equal_spec in H; destruct H as [<- _]; congruence|]. right. exact H.
Qed.

(** every hypothesis of C54_solve holds at once, and there is a lap: two seconds at 50 m/s *)
Definition ex_roads (name : string) : result (dict (list R)) := if String.eqb name "straight.csv" then Ok (table straight) else disk name.
Definition ex_tuning : list (lcall ex_q) := [LOcp (SScales [{| sc_g := "states"; sc_n := "vx"; sc_v := 70 |}]); LTrack "straight.csv"; LOcp (SParams ex_now)].
Definition ex_jac : list string -> list R -> R -> ex_q -> list R := fun _ _ _ _ => [].
Definition ex_hess : list string -> list R -> list R -> R -> ex_q -> list R := fun _ _ _ _ _ => [].
Definition ex_none : list string -> list nat * list nat := fun _ => ([], []).
Definition ex_race : smodel ex_q := race_model ex_tire_out aero_outputs ex_tire ex_aero ex_own ex_jac ex_hess ex_none ex_none.
Lemma ex_shapes : shapes ex_jac ex_hess ex_none ex_none.
Proof. unfold shapes. cbn. repeat split; intros; constructor. Qed.
Lemma ex_all : forall q, exists v aero tire, realizes ex_tire_out aero_outputs ex_tire ex_aero ex_own q v aero tire.
Proof. intro q. eauto using ex_realizes. Qed.
Example C54_nonvacuous : exists c l pl, let roots := fun _ : list R => [-1; 1/3] in let p := (default_vehicle, default_tire, []) in
  make_ltc (Some "bent.csv") (Some 99%nat) None None (Some true) None None None None None = Ok c /\ shapes ex_jac ex_hess ex_none ex_none /\ oracle_ok roots None /\
  (forall q, exists v aero tire, realizes ex_tire_out aero_outputs ex_tire ex_aero ex_own q v aero tire) /\
  lap_history roots ex_roads ex_race c p ex_tuning = Ok l /\ Forall tuning ex_tuning /\ Forall (good_track ex_roads) (LTrack "bent.csv" :: ex_tuning) /\
  reads ex_roads (track_asked "bent.csv" ex_tuning) straight /\ drivable straight /\ gentle straight /\
  Forall (fun c => 0 < sc_v c) (scales_asked (map (fun '(g, nm, v) => {| sc_g := g; sc_n := nm; sc_v := v |}) usual_scales) (other_calls ex_tuning)) /\
  realizes ex_tire_out aero_outputs ex_tire ex_aero ex_own (params_asked p (other_calls ex_tuning)) default_vehicle (fun _ _ _ => (0, 3)) (ex_tire_model default_tire) /\ sensible default_vehicle /\
  points_used 99 None pl /\ drive 99 pl straight true default_vehicle (fun _ _ _ => (0, 3)) (ex_tire_model default_tire) (coast 99) /\ lap_cost 99 (coast 99) = 2.
Proof.
  destruct (make_ltc (Some "bent.csv") None None None (Some true) None None None None None) as [c|] eqn:EM; [|discriminate]. pose proof (proj1 C22_nonvacuous) as HO.
  assert (reads ex_roads "bent.csv" bent) as RB by (exists (table bent); repeat split). assert (reads ex_roads "straight.csv" straight) as RS by (exists (table straight); repeat split).
  destruct (C54_accepts ex_q ex_tire_out aero_outputs ex_tire ex_aero ex_own ex_jac ex_hess ex_none ex_none (fun _ => [-1; 1/3]) ex_roads "bent.csv" (default_vehicle, default_tire, []) (Some true) c ex_tuning ex_shapes HO ex_all EM) as (l & EL).
  - unfold ex_tuning. repeat constructor.
  - unfold ex_tuning. apply Forall_cons; [exists bent; split; [exact RB|exact bent_drivable]|]. apply Forall_cons; [intros s [<-|[]]; left; cbn; tauto|]. apply Forall_cons; [exists straight; split; [exact RS|exact straight_drivable]|]. apply Forall_cons; [exact I|constructor].
  - exists c, l, (map (fun i => INR i / INR 99) (seq 0 100)).
    assert (points_used 99 None (map (fun i => INR i / INR 99) (seq 0 100))) as PU.
    { split; [rewrite map_length, seq_length; reflexivity|]. intros i Hi. rewrite (nth_map_in _ _ _ _ _ _ 0%nat) by (rewrite seq_length; lia). now rewrite seq_nth by lia. }
    split; [exact EM|]. split; [exact ex_shapes|]. split; [exact HO|]. split; [exact ex_all|]. split; [exact EL|]. split; [unfold ex_tuning; repeat constructor|].
    split. { unfold ex_tuning. apply Forall_cons; [exists bent; split; [exact RB|exact bent_drivable]|]. apply Forall_cons; [exact I|]. apply Forall_cons; [exists straight; split; [exact RS|exact straight_drivable]|]. apply Forall_cons; [exact I|constructor]. }
    split; [exact RS|]. split; [exact straight_drivable|]. split; [exact straight_gentle|]. split; [repeat constructor; cbn; lra|]. split; [exact (ex_realizes ex_now)|]. split; [exact C54_default_car|]. split; [exact PU|].
    split; [apply coast_drive; [lia|exact PU]|].
    unfold lap_cost. cbn [coast at_t at_driver steer]. rewrite rsum_zero_seq by (intros; ring). assert (INR 99 <> 0) by (apply not_0_INR; lia). assert (INR (99 + 1) <> 0) by (apply not_0_INR; lia). change (INR 0) with 0. field. split; assumption.
Qed.
