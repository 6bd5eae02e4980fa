(** C53: the drone simulation, from its default configuration to the solution. *)
From Verif Require Import Base RBase TreeModel UtilsModel UtilsProofs IoModel CollocModel CollocProofs CollocProps MeshModel MeshProps OcpModel OcpSpec OcpProofs OcpProps NlpModel NlpSpec AlgModel AlgSpec ConvModel ConvSpec CyclicSpec BoundModel BoundSpec ScaleModel ScaleSpec
  BuildModel BuildSpec BuildProofs BuildProofs4 BuildProofs5 BuildProofs6 BuildProps BuildProps2 BuildProps3 GuessProofs LapModel DroneModel FlightModel FlightSpec FlightProofs.

(** every plan is held by some vector, which is made by the steps of the initial guess *)
Lemma plan_flat : forall roots n pts o jac hess js hs g k SS UU ds, OcpSpec.built roots "Trapezoidal" None n drone_states drone_inputs ["sin_theta"] pts None o -> shapes jac hess js hs -> num_stages (oc_op o) = (n + 1)%nat ->
  let M := drone_model jac hess js hs in List.length SS = (n + 1)%nat -> List.length UU = (n + 1)%nat -> List.length ds = (n + 1)%nat ->
  (forall s, (s <= n)%nat -> nth s SS [] = [f_x k s; f_vx k s; f_z k s; f_vz k s; f_th k s]) -> (forall s, (s <= n)%nat -> nth s UU [] = [f_f k s; f_om k s]) ->
  exists ret x, rows_forward (forward_with_arrays (names_of M ["sin_theta"]) (m_forward M g)) SS UU ds = Ok ret /\
    flatten_var (oc_op o) [("states", FArr SS); ("inputs", FArr UU); ("states_dot", FArr (map fst ret)); ("con_outputs", FArr (map snd ret)); ("mesh_scale", FSc (f_T k))] = Ok x /\ logs n g o x k.
Proof.
  intros roots n pts o jac hess js hs g k SS UU ds B HS NS M LS LU LD NS1 NU1.
  destruct (flat_guess roots "Trapezoidal" None n pts None o M ["sin_theta"] B (drone_model_ok jac hess js hs HS) SS UU ds g [("mesh_scale", FSc (f_T k))]) as (ret & x & ER & EX & LX & V1 & V2 & V3 & VM).
  - rewrite NS. split; [exact LS|]. apply Forall_forall. intros r Hr. apply (In_nth _ _ []) in Hr. destruct Hr as (s & Hs & <-). rewrite NS1 by lia. reflexivity.
  - rewrite NS. split; [exact LU|]. apply Forall_forall. intros r Hr. apply (In_nth _ _ []) in Hr. destruct Hr as (s & Hs & <-). rewrite NU1 by lia. reflexivity.
  - rewrite NS. exact LD.
  - reflexivity.
  - exists ret, x. split; [exact ER|]. split; [exact EX|]. constructor; [exact LX|now apply V3|]. intros s Hs. assert (s < num_stages (oc_op o))%nat as Hs' by lia.
    destruct (VM s Hs') as (sd & out & _ & _ & E & D1 & D2). rewrite (NS1 s Hs), (NU1 s Hs) in E. cbn [M drone_model m_states m_inputs m_forward drone_states drone_inputs combine] in E.
    change (drone_forward [("gravity", g)] (st_of (f_x k s) (f_vx k s) (f_z k s) (f_vz k s) (f_th k s)) (in_of (f_f k s) (f_om k s)) = Ok (sd, out)) in E. rewrite drone_sem in E. injection E as <- <-.
    assert (forall c q v, nth_error drone_states c = Some q -> nth c [f_x k s; f_vx k s; f_z k s; f_vz k s; f_th k s] 0 = v -> val o x "states" q s v) as VS.
    { intros c q v Hc <-. rewrite <- (NS1 s Hs). apply V1; assumption. }
    assert (forall c q v, nth_error drone_inputs c = Some q -> nth c [f_f k s; f_om k s] 0 = v -> val o x "inputs" q s v) as VI.
    { intros c q v Hc <-. rewrite <- (NU1 s Hs). apply V2; assumption. }
    assert (forall nm v, In nm drone_states -> dget nm [("x", f_vx k s); ("x_dot", f_f k s * sin (f_th k s)); ("z", f_vz k s); ("z_dot", f_f k s * cos (f_th k s) - g); ("theta", f_om k s)] = Some v -> val o x "states_dot" nm s v) as D.
    { intros nm v Hnm Hv. destruct (D1 nm Hnm) as (w & W1 & W2). rewrite Hv in W1. injection W1 as ->. exact W2. }
    destruct (D2 "sin_theta" (or_introl eq_refl)) as (w & W1 & W2). injection W1 as <-.
    split; [now apply (VS 0%nat)|]. split; [now apply (VS 1%nat)|]. split; [now apply (VS 2%nat)|]. split; [now apply (VS 3%nat)|]. split; [now apply (VS 4%nat)|]. split; [now apply (VI 0%nat)|]. split; [now apply (VI 1%nat)|].
    repeat (split; [apply D; [cbn; tauto|reflexivity]|]). exact W2.
Qed.
Lemma plan_vector : forall roots n pts o jac hess js hs g k, OcpSpec.built roots "Trapezoidal" None n drone_states drone_inputs ["sin_theta"] pts None o -> shapes jac hess js hs -> num_stages (oc_op o) = (n + 1)%nat ->
  exists x, logs n g o x k.
Proof.
  intros roots n pts o jac hess js hs g k B HS NS.
  destruct (plan_flat roots n pts o jac hess js hs g k (map (fun s => [f_x k s; f_vx k s; f_z k s; f_vz k s; f_th k s]) (seq 0 (n + 1))) (map (fun s => [f_f k s; f_om k s]) (seq 0 (n + 1))) (repeat 0 (n + 1)) B HS NS) as (_ & x & _ & _ & H).
  - now rewrite map_length, seq_length.
  - now rewrite map_length, seq_length.
  - apply repeat_length.
  - intros s Hs. rewrite (nth_map_in _ _ _ _ _ _ 0%nat) by (rewrite seq_length; lia). rewrite seq_nth by lia. reflexivity.
  - intros s Hs. rewrite (nth_map_in _ _ _ _ _ _ 0%nat) by (rewrite seq_length; lia). rewrite seq_nth by lia. reflexivity.
  - now exists x.
Qed.

Definition default_drone (n : nat) (pts : option (list R)) (scales : list scale_config) : sim_config := make_drone_config (Some n) pts None None None None None None (Some scales).
Lemma tuning_plain : forall cs, Forall tuning cs -> Forall plain cs /\ bounds_asked drone_bounds cs = map of_bound drone_bounds /\ bcs_asked drone_bcs cs = map of_bc drone_bcs.
Proof.
  intros cs H. assert (Forall plain cs /\ flat_map (fun c => match c with SBounds bs => bs | _ => [] end) cs = [] /\ flat_map (fun c => match c with SBCs bs => bs | _ => [] end) cs = []) as (A & B & C).
  { induction H as [|c cs Hc _ (A & B & C)]; [repeat constructor|]. destruct c; try contradiction; (split; [constructor; [exact I|exact A]|]); cbn [flat_map app]; auto. }
  split; [exact A|]. unfold bounds_asked, bcs_asked. rewrite B, C, !app_nil_r. auto.
Qed.

(** For every number of intervals, mesh points, gravity, positive scales and every history of changes of gravity and scales: what IPOPT gets is the problem of the
    fastest flight. *)
Theorem C53_solve : forall roots jac hess js hs ipopt n pts scales g cs a guess, shapes jac hess js hs -> oracle_ok roots None -> (1 <= n)%nat ->
  let M := drone_model jac hess js hs in let cfg := default_drone n pts scales in
  history roots M cfg None g cs = Ok a -> Forall tuning cs -> Forall (fun c => 0 < sc_v c) (scales_asked scales cs) -> List.length guess = num_dec (oc_op (a_o a)) ->
  let o := a_o a in let now := params_asked g cs in let phys := physical o drone_states drone_inputs ["sin_theta"] None (scales_asked scales cs) in
  exists q y0 pl, points_used n pts pl /\ phys y0 guess /\
    (forall y x, List.length y = List.length guess -> phys y x ->
       (ip_feasible (List.length guess) q y <-> exists k, logs n now o x k /\ flight n pl now k) /\
       (ip_optimum (List.length guess) q y <-> exists k, logs n now o x k /\ flight n pl now k /\ forall k', flight n pl now k' -> f_T k <= f_T k')) /\
    (forall y status, ipopt q y0 = (y, status) -> List.length y = List.length guess ->
       (status = (-13)%Z -> ocp_solve M ipopt a guess = Raise RuntimeError) /\ (status <> (-13)%Z -> exists x, phys y x /\ ocp_solve M ipopt a guess = Ok (x, status))).
Proof.
  intros roots jac hess js hs ipopt n pts scales g cs a guess HS HO Hn M cfg HH HT HSc Lg o now phys.
  destruct (tuning_plain cs HT) as (HP & EB & EC). pose proof (drone_model_ok jac hess js hs HS) as MO.
  destruct (the_facts roots R M cfg None g cs a HO Hn (ltac:(discriminate)) MO HH HP) as (o' & fm & pl' & ops & h & F).
  pose proof (fa_o _ _ _ _ _ _ _ _ _ _ _ _ _ F) as EO. fold o in EO. subst o'. pose proof (fa_built _ _ _ _ _ _ _ _ _ _ _ _ _ F) as BU. pose proof (fa_tr _ _ _ _ _ _ _ _ _ _ _ _ _ F) as TR. pose proof (fa_ns _ _ _ _ _ _ _ _ _ _ _ _ _ F) as NS.
  change (make_transcription roots (cf_tname cfg) (cf_tns cfg)) with (Ok trapezoidal) in TR. injection TR as TR. rewrite <- TR in NS.
  assert (num_stages (oc_op o) = (n + 1)%nat) as NS'. { change (num_stages (oc_op o) = (n * 1 + 1)%nat) in NS. lia. }
  destruct (C51_solve roots R M ipopt cfg None g cs a guess HO Hn (ltac:(discriminate)) MO (ltac:(congruence)) (ltac:(discriminate)) HH HP HSc Lg) as (t & pl & q & y0 & T1 & T2 & T3).
  change (make_transcription roots (cf_tname cfg) (cf_tns cfg)) with (Ok trapezoidal) in T1. injection T1 as <-. cbv zeta in T3. fold o in T3.
  change (cf_cyclic cfg) with false in T3. change (cf_bounds cfg) with drone_bounds in T3. change (cf_bcs cfg) with drone_bcs in T3. rewrite EB, EC in T3. change (cf_n cfg) with n in T3, T2. change (cf_points cfg) with pts in T2.
  destruct T3 as (P1 & P2 & P3). exists q, y0, pl. split; [exact T2|]. split; [exact P1|]. split; [|exact P3].
  intros y x Ly HX. destruct (P2 y x Ly HX) as [F1 F2]. clear P2 P3.
  change (m_forward M (params_asked g cs)) with (fun (ds di : dict R) (_ : R) => drone_forward [("gravity", now)] ds di) in F1, F2.
  change (m_states M) with drone_states in F1, F2. change (m_inputs M) with drone_inputs in F1, F2. change (cf_con cfg) with ["sin_theta"] in F1, F2. change (m_residuals M) with (@nil string) in F1, F2. change (cf_pen cfg) with (@None (dict R)) in F2.
  split.
  - rewrite F1. split.
    + intros TJ. exists (plan_of o x). split; [eapply traj_logs; eauto|eapply traj_flight; eauto].
    + intros (k & K1 & K2). eapply flight_traj; eauto.
  - rewrite F2. unfold best. split.
    + intros (TJ & c & HC & HB). exists (plan_of o x). pose proof (traj_logs _ _ _ _ NS' Hn _ TJ) as LG. split; [exact LG|]. split; [eapply traj_flight; eauto|]. intros k' FL'.
      destruct (plan_vector roots n pts o jac hess js hs now k' BU HS NS') as (y' & LG').
      assert (forall x k, logs n now o x k -> cost o drone_inputs trapezoidal n None None x (f_T k)) as CO.
      { intros x0 k0 L0. exists (f_T k0), (fun s j => nth j [f_f k0 s; f_om k0 s] 0). split; [apply (lg_T _ _ _ _ _ L0)|]. split; [|lra]. intros s j Hs Hj. cbn in Hs. destruct (lg_at _ _ _ _ _ L0 s ltac:(lia)) as (_ & _ & _ & _ & _ & V6 & V7 & _).
        destruct j as [|[|j]]; [exact V6|exact V7|cbn in Hj; lia]. }
      assert (c = f_T (plan_of o x)) as <-. { destruct HC as (tm & v & Q1 & _ & ->). rewrite (length_fun None _ _ _ _ Q1 (lg_T _ _ _ _ _ LG)). lra. }
      apply (HB y'); [|now apply CO]. exact (flight_traj _ _ _ _ NS' Hn _ _ LG' FL').
    + intros (k & K1 & K2 & K3). split; [eapply flight_traj; eauto|]. exists (f_T k). split.
      { exists (f_T k), (fun s j => nth j [f_f k s; f_om k s] 0). split; [apply (lg_T _ _ _ _ _ K1)|]. split; [|lra]. intros s j Hs Hj. cbn in Hs. destruct (lg_at _ _ _ _ _ K1 s ltac:(lia)) as (_ & _ & _ & _ & _ & V6 & V7 & _).
        destruct j as [|[|j]]; [exact V6|exact V7|cbn in Hj; lia]. }
      intros y' d TJ' (tm & v & Q1 & _ & ->). pose proof (traj_logs _ _ _ _ NS' Hn _ TJ') as LG'. rewrite (length_fun None _ _ _ _ Q1 (lg_T _ _ _ _ _ LG')). rewrite Rplus_0_r. apply K3. eapply traj_flight; eauto.
Qed.
Print Assumptions C53_solve.
