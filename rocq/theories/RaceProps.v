(** C54: the laptime simulation of the vehicle, from its default configuration to the solution. *)
From Verif Require Import Base RBase TreeModel UtilsModel UtilsProofs IoModel IoProofs CollocModel CollocProofs CollocProps MeshModel MeshProps OcpModel OcpSpec OcpProofs OcpProps NlpModel NlpSpec AlgModel AlgSpec ConvModel ConvSpec CyclicSpec ObjSpec BoundModel BoundSpec BoundProofs ScaleModel ScaleSpec
  BuildModel BuildSpec BuildProofs BuildProofs4 BuildProofs5 BuildProofs6 BuildProps BuildProps2 GuessProofs VehModel VehSpec VehProps KinModel TrackModel TrackSpec LapModel LapSpec LapProofs LapProps LapProps2 LapProps4 FlightProofs RaceModel RaceProofs RaceSpec RaceProofs2 RaceProofs3 RaceProofs4 RaceProofs5 RaceProofs6.

Lemma tuning_plain : forall P (cs : list (lcall P)), Forall tuning cs -> Forall lplain cs /\ flat_map (fun c => match c with SBCs l => l | _ => [] end) (other_calls cs) = [].
Proof.
  intros P cs H. induction H as [|c cs Hc _ (A & B)]; [split; [constructor|reflexivity]|]. destruct c as [[]|]; try contradiction; (split; [constructor; [exact I|exact A]|]); exact B.
Qed.
(** the penalty on the steering *)
Lemma steer_penalty : forall n k, penalty [("steer", 1)] lap_inputs (n + 1) (fun s j => nth j (map snd (input_list (k s))) 0) = rsum (map (fun s => steer (at_driver (k s)) * steer (at_driver (k s))) (seq 0 (n + 1))) / INR (n + 1).
Proof.
  intros n k. unfold penalty. f_equal. f_equal. apply map_ext. intro s. cbn [lap_inputs List.length seq map nth input_list weight_of dget String.eqb Ascii.eqb Bool.eqb fst snd rsum fold_right]. unfold rsum. cbn [fold_right]. unfold weight_of. cbn. ring.
Qed.
Lemma lap_cost_is : forall o n x k c L, logs n o x k -> (cost o lap_inputs trapezoidal n (Some L) (Some [("steer", 1)]) x c <-> c = lap_cost n k).
Proof.
  intros o n x k c L LG. assert (n * (t_stages trapezoidal - 1) = n)%nat as EN by (cbn; lia).
  assert (forall s j, (s <= n)%nat -> (j < 7)%nat -> val o x "inputs" (nth j lap_inputs "") s (nth j (map snd (input_list (k s))) 0)) as VI.
  { intros s j Hs Hj. apply (lg_input _ _ _ _ LG s _ _ Hs). do 7 (destruct j as [|j]; [cbn; tauto|]). lia. }
  assert (time_spent o trapezoidal n (Some L) x (at_t (k n) - at_t (k 0%nat))) as TS.
  { exists (at_t (k 0%nat)), (at_t (k n)). rewrite EN. split; [apply (lg_state _ _ _ _ LG); [lia|cbn; tauto]|]. split; [apply (lg_state _ _ _ _ LG); [lia|cbn; tauto]|reflexivity]. }
  split.
  - intros (tm & v & (t0 & t1 & V0 & V1 & ->) & HV & ->). rewrite EN in *. destruct TS as (u0 & u1 & U0 & U1 & EU). rewrite EN in U1. unfold lap_cost. rewrite EU. f_equal; [now rewrite (val_fun _ _ _ _ _ _ _ V0 U0), (val_fun _ _ _ _ _ _ _ V1 U1)|].
    rewrite <- steer_penalty. apply penalty_ext. intros s j Hs Hj. apply (val_fun _ _ _ _ _ _ _ (HV s j ltac:(lia) Hj)). apply VI; [lia|exact Hj].
  - intros ->. exists (at_t (k n) - at_t (k 0%nat)), (fun s j => nth j (map snd (input_list (k s))) 0). split; [exact TS|]. rewrite EN. split; [intros s j Hs Hj; now apply VI|]. unfold lap_cost. now rewrite steer_penalty.
Qed.

Section C54.
Context {P : Type}.
Variables (tire_out aero_out : list string) (tire_f : P -> corner -> dict R -> result (dict R)) (aero_f : P -> dict R -> result (dict R)) (own : P -> dict R)
  (jac : list string -> list R -> R -> P -> list R) (hess : list string -> list R -> list R -> R -> P -> list R) (js hs : list string -> list nat * list nat).
Let M := race_model tire_out aero_out tire_f aero_f own jac hess js hs.

(** every sequence of moments that obeys mechanics is held by some vector *)
Lemma lap_vector : forall roots n pts o L q v aero tire f cyclic pl k, OcpSpec.built roots "Trapezoidal" None n lap_states lap_inputs usual_outputs pts (Some L) o -> shapes jac hess js hs -> num_stages (oc_op o) = (n + 1)%nat ->
  (forall q, exists v aero tire, realizes tire_out aero_out tire_f aero_f own q v aero tire) -> realizes tire_out aero_out tire_f aero_f own q v aero tire -> sensible v -> gentle f -> drive n pl f cyclic v aero tire k -> exists x, logs n o x k.
Proof using.
  intros roots n pts o L q v aero tire f cyclic pl k B HS NS ALL RZ SE GE DR.
  destruct (flat_guess roots "Trapezoidal" None n pts (Some L) o M usual_outputs B (race_model_ok P tire_out aero_out tire_f aero_f own jac hess js hs HS ALL) (map (fun s => map snd (state_list (k s))) (seq 0 (n + 1))) (map (fun s => map snd (input_list (k s))) (seq 0 (n + 1))) (repeat 0 (n + 1)) q []) as (ret & x & _ & _ & LX & V1 & V2 & _ & VM).
  - rewrite NS. split; [now rewrite map_length, seq_length|]. apply Forall_forall. intros r Hr. apply in_map_iff in Hr. destruct Hr as (s & <- & _). reflexivity.
  - rewrite NS. split; [now rewrite map_length, seq_length|]. apply Forall_forall. intros r Hr. apply in_map_iff in Hr. destruct Hr as (s & <- & _). reflexivity.
  - rewrite NS. apply repeat_length.
  - reflexivity.
  - assert (forall A (g : nat -> A) d s, (s <= n)%nat -> nth s (map g (seq 0 (n + 1))) d = g s) as NM. { intros A g d s Hs. rewrite (nth_map_in _ _ _ _ _ _ 0%nat) by (rewrite seq_length; lia). now rewrite seq_nth by lia. }
    assert (forall (l : list (string * R)) nm a (Q : string -> R -> Prop), (forall c q, nth_error (map fst l) c = Some q -> Q q (nth c (map snd l) 0)) -> In (nm, a) l -> Q nm a) as NE.
    { intros l nm a Q H Hin. apply (In_nth_error) in Hin. destruct Hin as (c & Hc). specialize (H c nm). rewrite (nth_error_nth (map snd l) c 0 (x := a)) in H; [apply H|]; rewrite nth_error_map, Hc; reflexivity. }
    assert (forall s, (s <= n)%nat -> exists out, (forall nm a, In (nm, a) (per_metre (k s)) -> val o x "states_dot" nm s a) /\ (forall nm a, In (nm, a) (slip_list (k s)) -> val o x "con_outputs" nm s a) /\ out = 0) as VD.
    { intros s Hs. exists 0. destruct (VM s ltac:(lia)) as (sd & out & _ & _ & E & D1 & D2). rewrite !NM in E by exact Hs. set (m := k s) in *.
      change (race_forward tire_out aero_out tire_f aero_f own q (st10 (at_t m) (at_n m) (at_eta m) (at_car m)) (in7 (at_driver m) (at_curv m) (at_head m)) = Ok (sd, out)) in E.
      destruct (race_sem _ _ _ _ _ _ _ _ _ RZ (at_t m) (at_n m) (at_eta m) (at_car m) (at_driver m) (at_curv m) (at_head m)) as (out' & E' & _ & EO). rewrite E' in E. injection E as <- ->.
      destruct (drive_regular v aero tire SE n pl f cyclic GE k s DR Hs) as [_ SP]. fold m in SP.
      assert (computed v aero tire m) as (C1 & C2 & C3 & C4 & C5 & C6 & _ & _).
      { apply mechanics_iff; [now apply sensible_sane| |apply (dr_mechanics _ _ _ _ _ _ _ _ DR s Hs)]. destruct (dr_limits _ _ _ _ _ _ _ _ DR s Hs) as (_ & _ & _ & _ & _ & _ & _ & _ & WS). pose proof (WS rl). pose proof (WS rr). fold m in H, H0. lra. }
      split; [|split; [|reflexivity]].
      - assert (forall nm a b, In nm lap_states -> dget nm (dot10 (at_n m) (at_eta m) (at_curv m) (at_car m) (vehicle_forward v aero tire (at_car m) (at_driver m))) = Some b -> a = b -> val o x "states_dot" nm s a) as K.
        { intros nm a b H1 H2 ->. destruct (D1 nm H1) as (w & W1 & W2). rewrite H2 in W1. injection W1 as ->. exact W2. }
        assert (road_speed (at_n m) (at_eta m) (at_curv m) (at_car m) = along_road m) as ER by reflexivity. unfold dot10 in K. rewrite ER in K. apply all_in. unfold per_metre. rewrite C1, C2, C3, !C4. set (sp := along_road m) in *.
        repeat (apply Forall_cons; [eapply K; [cbn; tauto|reflexivity|cbn [fst snd]; field; lra]|]). constructor.
      - assert (forall nm w, In (prefixed "vehicle" nm) usual_outputs -> dget nm (veh_out (vehicle_forward v aero tire (at_car m) (at_driver m))) = Some w -> val o x "con_outputs" (prefixed "vehicle" nm) s w) as K.
        { intros nm w H1 H2. destruct (D2 _ H1) as (w' & W1 & W2). rewrite (EO nm w H2) in W1. injection W1 as ->. exact W2. }
        apply all_in. unfold slip_list. rewrite !C5, !C6.
        apply Forall_cons; [apply (K "slip_ratio_fl"); [cbn; tauto|reflexivity]|]. apply Forall_cons; [apply (K "slip_ratio_fr"); [cbn; tauto|reflexivity]|]. apply Forall_cons; [apply (K "slip_ratio_rl"); [cbn; tauto|reflexivity]|]. apply Forall_cons; [apply (K "slip_ratio_rr"); [cbn; tauto|reflexivity]|].
        apply Forall_cons; [apply (K "slip_angle_fl"); [cbn; tauto|reflexivity]|]. apply Forall_cons; [apply (K "slip_angle_fr"); [cbn; tauto|reflexivity]|]. apply Forall_cons; [apply (K "slip_angle_rl"); [cbn; tauto|reflexivity]|]. apply Forall_cons; [apply (K "slip_angle_rr"); [cbn; tauto|reflexivity]|]. constructor. }
    exists x. constructor; [exact LX| | | |].
    + intros s nm a Hs. apply (NE (state_list (k s)) nm a (fun nm a => val o x "states" nm s a)). intros c nm' Hc. replace (map snd (state_list (k s))) with (nth s (map (fun s => map snd (state_list (k s))) (seq 0 (n + 1))) []) by (now apply NM). apply V1; [lia|exact Hc].
    + intros s nm a Hs. apply (NE (input_list (k s)) nm a (fun nm a => val o x "inputs" nm s a)). intros c nm' Hc. replace (map snd (input_list (k s))) with (nth s (map (fun s => map snd (input_list (k s))) (seq 0 (n + 1))) []) by (now apply NM). apply V2; [lia|exact Hc].
    + intros s nm a Hs. destruct (VD s Hs) as (_ & H & _ & _). apply H.
    + intros s nm a Hs. destruct (VD s Hs) as (_ & _ & H & _). apply H.
Qed.

(** For every number of intervals, mesh points, open or cyclic lap, positive scales, and every history of replacing the track, the parameters and the scales: if the car is
    sensible and the road last set is gentle, then what IPOPT gets is the problem of the fastest lap. *)
Theorem C54_solve : forall roots read_csv ipopt first n pts cyc scales c p cs l guess f v aero tire, shapes jac hess js hs -> oracle_ok roots None -> (1 <= n)%nat ->
  (forall q, exists v aero tire, realizes tire_out aero_out tire_f aero_f own q v aero tire) -> make_ltc (Some first) (Some n) pts None (Some cyc) None None None None scales = Ok c ->
  lap_history roots read_csv M c p cs = Ok l -> Forall tuning cs -> Forall (good_track read_csv) (LTrack first :: cs) -> reads read_csv (track_asked first cs) f -> drivable f -> gentle f ->
  let scs := scales_asked (match scales with Some sc => sc | None => map (fun '(g, nm, v) => {| sc_g := g; sc_n := nm; sc_v := v |}) usual_scales end) (other_calls cs) in
  Forall (fun c => 0 < sc_v c) scs -> List.length guess = num_dec (oc_op (a_o (l_a l))) ->
  realizes tire_out aero_out tire_f aero_f own (params_asked p (other_calls cs)) v aero tire -> sensible v ->
  let o := a_o (l_a l) in let phys := physical o lap_states lap_inputs usual_outputs (Some (road_length f)) scs in
  exists q y0 pl, points_used n pts pl /\ phys y0 guess /\
    (forall y x, List.length y = List.length guess -> phys y x ->
       (ip_feasible (List.length guess) q y <-> exists k, logs n o x k /\ drive n pl f cyc v aero tire k) /\
       (ip_optimum (List.length guess) q y <-> exists k, logs n o x k /\ drive n pl f cyc v aero tire k /\ forall k', drive n pl f cyc v aero tire k' -> lap_cost n k <= lap_cost n k')) /\
    (forall y status, ipopt q y0 = (y, status) -> List.length y = List.length guess ->
       (status = (-13)%Z -> ocp_solve M ipopt (l_a l) guess = Raise RuntimeError) /\ (status <> (-13)%Z -> exists x, phys y x /\ ocp_solve M ipopt (l_a l) guess = Ok (x, status))).
Proof using.
  intros roots read_csv ipopt first n pts cyc scales c p cs l guess f v aero tire HS HOr Hn ALL EC HH HT HG HF DV GE scs HSc Lg RZ SE o phys.
  pose proof (race_model_ok P tire_out aero_out tire_f aero_f own jac hess js hs HS ALL) as MO. fold M in MO. destruct (tuning_plain P cs HT) as [HP EB]. injection EC as <-. match type of HH with lap_history _ _ _ ?c' _ _ = _ => set (c := c') in * end.
  assert (scales_asked (cf_scales (lc_sim c)) (other_calls cs) = scs) as ESC by (unfold scs; destruct scales; reflexivity).
  destruct (lap_history_expand roots read_csv P M c first p cs l eq_refl HOr Hn ltac:(discriminate) HH HP HG) as (calls & fm & X & EH & PL & EF & EM & ML & _). specialize (ML f HF).
  destruct (the_facts roots P M (with_penalty (lc_sim c)) (Some 1) p calls (l_a l) HOr Hn (ltac:(discriminate)) MO EH PL) as (o' & fm' & pl' & ops & h0 & F).
  pose proof (fa_o _ _ _ _ _ _ _ _ _ _ _ _ _ F) as EO. fold o in EO. subst o'. pose proof (fa_built _ _ _ _ _ _ _ _ _ _ _ _ _ F) as BU. pose proof (fa_tr _ _ _ _ _ _ _ _ _ _ _ _ _ F) as TR. pose proof (fa_ns _ _ _ _ _ _ _ _ _ _ _ _ _ F) as NS.
  change (make_transcription roots _ _) with (Ok trapezoidal) in TR. injection TR as TR. rewrite <- TR in NS.
  assert (num_stages (oc_op o) = (n + 1)%nat) as NS'. { change (num_stages (oc_op o) = (n * 1 + 1)%nat) in NS. lia. }
  destruct (C52_solve roots read_csv P M ipopt c first p cs l guess f eq_refl HOr Hn MO ltac:(cbn; tauto) ltac:(cbn; tauto) HH HP HG HF ltac:(rewrite ESC; exact HSc) Lg) as (t & pl & q & y0 & bs & T1 & T2 & T3 & T4).
  change (make_transcription roots _ _) with (Ok trapezoidal) in T1. injection T1 as <-. cbv zeta in T4. rewrite ESC in T4. destruct T4 as (P1 & P2 & P3).
  exists q, y0, pl. split; [exact T2|]. split; [exact P1|]. split; [|exact P3].
  set (C := map of_bc (default_bcs true)).
  assert (bcs_asked (cf_bcs (lc_sim c)) (other_calls cs) = C) as EBC. { unfold bcs_asked. rewrite EB, app_nil_r. reflexivity. }
  set (B := map of_bound (cf_bounds (lc_sim c)) ++ bs) in *.
  assert (Forall tuning (LTrack first :: cs)) as HT' by (constructor; [exact I|exact HT]).
  assert (forall s, (s <= n)%nat -> exists k h lf r, road_at f (nth s pl 0 * road_length f) k h lf r /\ expected (oc_op o) B C "inputs" "track_curvature" s = (Fin k, Fin k) /\
    expected (oc_op o) B C "inputs" "track_heading" s = (Fin h, Fin h) /\ expected (oc_op o) B C "states" "n" s = (Fin (- r), Fin lf)) as HR.
  { intros s Hs. eapply (track_values P read_csv n pl cs first bs f o s); try eassumption. intros g nm Hin. cbn in Hin. repeat (destruct Hin as [Hin|Hin]; [injection Hin as <- <-; reflexivity|]). contradiction. }
  assert (forall g nm s, forallb (fun e => negb (String.eqb e (svname g nm))) ["inputs.track_curvature"; "inputs.track_heading"; "states.n"] = true ->
    expected (oc_op o) B C g nm s = expected (oc_op o) (map of_bound default_bounds) C g nm s) as HO.
  { intros g nm s FB. apply track_others; [|exact FB]. eapply tuning_track; eassumption. }
  set (now := params_asked p (other_calls cs)) in *.
  intros y x Ly HX. destruct (P2 y x Ly HX) as [F1 F2]. clear P2 P3. rewrite EBC in F1, F2.
  assert (forall x, trajectory o (m_states M) (m_inputs M) (cf_con (lc_sim c)) (m_residuals M) (m_forward M now) trapezoidal (cf_n (lc_sim c)) pl (Some (road_length f)) (if cf_cyclic (lc_sim c) then Some (cyclic_pairs (m_states M) (m_inputs M) (cf_noncyclic (lc_sim c))) else None) B C x
    <-> exists k, logs n o x k /\ drive n pl f cyc v aero tire k) as TD.
  { intro x0. change (traj tire_out aero_out tire_f aero_f own now o n pl f cyc B x0 <-> exists k, logs n o x0 k /\ drive n pl f cyc v aero tire k). split.
    - intro TJ. exact (traj_drive tire_out aero_out tire_f aero_f own now v aero tire RZ SE o n pl f cyc B GE NS' Hn HR HO x0 TJ).
    - intros (k & K1 & K2). exact (drive_traj tire_out aero_out tire_f aero_f own now v aero tire RZ SE o n pl f cyc B GE DV NS' Hn HR HO x0 k K1 K2). }
  split; [rewrite F1; apply TD|]. rewrite F2. unfold best. split.
  - intros (TJ & d & HC & HB). apply TD in TJ. destruct TJ as (k & K1 & K2). exists k. split; [exact K1|]. split; [exact K2|]. intros k' DR'. pose proof (proj1 (lap_cost_is o n x k d _ K1) HC) as ->.
    destruct (lap_vector roots n pts o _ now v aero tire f cyc pl k' BU HS NS' ALL RZ SE GE DR') as (x' & LG'). apply (HB x'); [apply TD; eauto|]. now apply (proj2 (lap_cost_is o n x' k' _ (road_length f) LG')).
  - intros (k & K1 & K2 & K3). split; [apply TD; eauto|]. exists (lap_cost n k). split; [now apply (proj2 (lap_cost_is o n x k _ (road_length f) K1))|]. intros x' d TJ' HC'. apply TD in TJ'. destruct TJ' as (k' & K1' & K2'). pose proof (proj1 (lap_cost_is o n x' k' d _ K1') HC') as ->. now apply K3.
Qed.
Print Assumptions C54_solve.
End C54.
