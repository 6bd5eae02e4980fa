(** C52: laptime simulations, from the configuration to the solution. *)
From Verif Require Import Base RBase TreeModel UtilsModel UtilsProofs IoModel CollocModel CollocProps MeshModel MeshProps OcpModel OcpSpec NlpModel NlpSpec NlpProofs NlpProofs2 NlpProps NlpProps2
  AlgModel AlgSpec ConvModel ConvSpec CyclicModel CyclicSpec ObjModel ObjSpec BoundModel BoundSpec ScaleModel ScaleSpec BuildModel BuildSpec BuildProofs BuildProofs2 BuildProofs3 BuildProofs4 BuildProofs5 BuildProofs6 BuildProps
  TrackModel TrackSpec TrackProofs TrackProps LapModel LapSpec LapProofs.

Lemma points_used_fun : forall n arg p q, points_used n arg p -> points_used n arg q -> p = q.
Proof.
  intros n arg p q. unfold points_used. destruct arg as [r|]; [congruence|]. intros (L1 & H1) (L2 & H2). apply (nth_ext p q 0 0); [congruence|]. intros i Hi. rewrite H1, H2 by lia. reflexivity.
Qed.
Lemma stage_lt : forall t n i j, (i < n)%nat -> (j < t_stages t)%nat -> (1 <= t_stages t)%nat -> (stage_of t i j < n * (t_stages t - 1) + 1)%nat.
Proof. intros t n i j Hi Hj _. unfold stage_of. nia. Qed.

(** the history as a history of calls on the fixed-mesh problem *)
Lemma lap_history_expand : forall roots read_csv P (M : smodel P) c first p cs l, lc_track c = Some first -> oracle_ok roots (cf_tns (lc_sim c)) -> (1 <= cf_n (lc_sim c))%nat -> m_states M <> [] ->
  lap_history roots read_csv M c p cs = Ok l -> Forall lplain cs -> Forall (good_track read_csv) (LTrack first :: cs) ->
  exists scs fm, expands read_csv fm (LTrack first :: cs) scs /\ history roots M (with_penalty (lc_sim c)) (Some 1) p scs = Ok (l_a l) /\ Forall plain scs /\ flat_mesh (oc_mesh (a_o (l_a l))) = Ok fm /\ a_amesh (l_a l) = fm /\
    (forall f, reads read_csv (track_asked first cs) f -> mesh_scale_asked 1 scs = road_length f) /\
    (exists t, l_track l = Some t /\ bind (read_csv (track_asked first cs)) from_tum_csv = Ok t).
Proof.
  intros roots read_csv P M c first p cs l EC HO Hn Hst E HP HG. unfold lap_history, lap_construct in E. apply bind_ok in E. destruct E as (l1 & E1 & E). apply bind_ok in E1. destruct E1 as (a & EA & E1). rewrite EC in E1.
  assert (lcalls read_csv {| l_a := a; l_track := None |} (LTrack first :: cs) = Ok l) as EL by (cbn [lcalls lcall_step]; rewrite E1; exact E).
  assert (history roots M (with_penalty (lc_sim c)) (Some 1) p [] = Ok a) as EH by (unfold history; rewrite EA; reflexivity).
  destruct (history_inv _ _ _ _ _ _ _ _ EH (Forall_nil _)) as (o0 & fm & cyc & a0 & EO & EF & _ & _ & _ & _ & [I1 _ _ _ _ _ _]).
  assert (fixed_at a fm) as FA. { split; rewrite I1; unfold o_at; [discriminate|exact EF]. }
  assert (Forall lplain (LTrack first :: cs)) as HP' by (constructor; [exact I|exact HP]).
  destruct (lcalls_expand read_csv _ {| l_a := a; l_track := None |} l fm FA EL HP' HG) as (scs & X & EX & FL & TL).
  assert (forall name f, reads read_csv name f -> drivable f -> 0 < road_length f) as POS by (intros name f HR HD; destruct (track_ok read_csv name f HR HD) as (_ & _ & _ & Q & _); exact Q).
  pose proof (expands_plain read_csv fm _ _ X HP' POS) as PL.
  assert (history roots M (with_penalty (lc_sim c)) (Some 1) p scs = Ok (l_a l)) as EH2 by (unfold history; rewrite EA; exact EX).
  exists scs, fm. split; [exact X|]. split; [exact EH2|]. split; [exact PL|]. split; [apply FL|]. split; [|split].
  - destruct (history_inv _ _ _ _ _ _ _ _ EH2 PL) as (o2 & fm2 & cyc2 & a2 & EO2 & EF2 & _ & _ & _ & _ & [J1 _ J3 _ _ _ _]). rewrite J3. rewrite EO in EO2. injection EO2 as <-. congruence.
  - inversion X as [| |name f0 c0 h0 l0 r0 cs0 scs0 HR HD HA X' Q1 Q2]; subst. intros f HF.
    destruct (scale_expand read_csv fm _ _ X' HP (road_length f0) f0 first HR eq_refl) as (f' & R' & EM). change (mesh_scale_asked 1 (SMeshScale (road_length f0) :: SBounds (three c0 h0 l0 r0) :: scs0)) with (mesh_scale_asked (road_length f0) scs0).
    rewrite EM. f_equal. eapply reads_fun; eassumption.
  - cbn [l_track fold_left] in TL. inversion X as [| |name f0 c0 h0 l0 r0 cs0 scs0 HR HD HA X' Q1 Q2]; subst. destruct (track_ok read_csv first f0 HR HD) as (t0 & ET0 & _). rewrite ET0 in TL. apply Forall_cons_iff in HG. destruct HG as [_ HG].
    clear -TL ET0 HG. revert t0 first TL ET0. unfold track_asked. induction cs as [|k cs IH]; intros t0 first TL ET0; [exists t0; auto|]. apply Forall_cons_iff in HG. destruct HG as [G1 G2]. cbn [fold_left] in *. destruct k as [k|nm]; [now apply (IH G2 t0)|].
    destruct G1 as (f & HR & HD). destruct (track_ok read_csv nm f HR HD) as (t1 & ET1 & _). rewrite ET1 in TL. now apply (IH G2 t1).
Qed.

(** For every configuration, track files that are roads and history of successful calls, set_track among them: what IPOPT is given has as feasible points
    exactly the trajectories of the model over the length of the track last set, within all bounds in the order in which they were asked for (those of the
    tracks included), and as optima those of least lap time plus mean squared steering. *)
Theorem C52_solve : forall roots read_csv P (M : smodel P) ipopt c first p cs l guess f,
  let cfg := lc_sim c in lc_track c = Some first -> oracle_ok roots (cf_tns cfg) -> (1 <= cf_n cfg)%nat -> model_ok M (cf_con cfg) -> In "time" (m_states M) -> In "steer" (m_inputs M) ->
  lap_history roots read_csv M c p cs = Ok l -> Forall lplain cs -> Forall (good_track read_csv) (LTrack first :: cs) -> reads read_csv (track_asked first cs) f ->
  Forall (fun c => 0 < sc_v c) (scales_asked (cf_scales cfg) (other_calls cs)) -> List.length guess = num_dec (oc_op (a_o (l_a l))) ->
  let o := a_o (l_a l) in let st := m_states M in let inp := m_inputs M in let con := cf_con cfg in let n := cf_n cfg in let len := Some (road_length f) in
  let phys := physical o st inp con len (scales_asked (cf_scales cfg) (other_calls cs)) in
  exists t pl q y0 bs, make_transcription roots (cf_tname cfg) (cf_tns cfg) = Ok t /\ points_used n (cf_points cfg) pl /\ lap_bounds read_csv t n pl (LTrack first :: cs) bs /\
    let cyc := if cf_cyclic cfg then Some (cyclic_pairs st inp (cf_noncyclic cfg)) else None in
    let fwd := m_forward M (params_asked p (other_calls cs)) in let bounds := map of_bound (cf_bounds cfg) ++ bs in let bcs := bcs_asked (cf_bcs cfg) (other_calls cs) in
    phys y0 guess /\
    (forall y x, List.length y = List.length guess -> phys y x ->
       (ip_feasible (List.length guess) q y <-> trajectory o st inp con (m_residuals M) fwd t n pl len cyc bounds bcs x) /\
       (ip_optimum (List.length guess) q y <-> best o st inp con (m_residuals M) fwd t n pl len (Some [("steer", 1)]) cyc bounds bcs x)) /\
    (forall y status, ipopt q y0 = (y, status) -> List.length y = List.length guess ->
       (status = (-13)%Z -> ocp_solve M ipopt (l_a l) guess = Raise RuntimeError) /\
       (status <> (-13)%Z -> exists x, phys y x /\ ocp_solve M ipopt (l_a l) guess = Ok (x, status))).
Proof.
  intros roots read_csv P M ipopt c first p cs l guess f cfg EC HO Hn MO HT HS HH HP HG HF HSc Lg o st inp con n len phys.
  assert (m_states M <> []) as Hst by (intro X; rewrite X in HT; exact HT).
  destruct (lap_history_expand roots read_csv P M c first p cs l EC HO Hn Hst HH HP HG) as (scs & fm & X & EH & PL & EF & EM & ML & _). specialize (ML f HF).
  assert (forall A (g : scall P -> option A) init, (forall s, g (SMeshScale s) = None) -> (forall bs, g (SBounds bs) = None) -> latest g init scs = latest g init (other_calls cs)) as LE.
  { intros A g init G1 G2. exact (latest_expand read_csv A g G1 G2 fm _ _ X init). }
  assert (scales_asked (cf_scales cfg) scs = scales_asked (cf_scales cfg) (other_calls cs)) as E1 by (apply LE; reflexivity).
  assert (params_asked p scs = params_asked p (other_calls cs)) as E2 by (apply LE; reflexivity).
  assert (bcs_asked (cf_bcs cfg) scs = bcs_asked (cf_bcs cfg) (other_calls cs)) as E3 by (unfold bcs_asked; rewrite (bcs_expand read_csv fm _ _ X); reflexivity).
  assert (forall w, cf_pen (with_penalty cfg) = Some w -> NoDup (keys w) /\ incl (keys w) (m_inputs M)) as HW.
  { intros w E. cbn in E. injection E as <-. split; [cbn; repeat constructor; intros []|]. intros q [<-|[]]. exact HS. }
  destruct (the_facts roots P M (with_penalty cfg) (Some 1) p scs (l_a l) HO Hn Hst MO EH PL) as (o' & fm' & pl' & ops & h & F).
  rewrite <- E1 in HSc.
  destruct (C51_solve roots P M ipopt (with_penalty cfg) (Some 1) p scs (l_a l) guess HO Hn Hst MO (fun _ => HT) HW EH PL HSc Lg) as (t & pl & q & y0 & T1 & T2 & T3).
  assert (pl' = pl) as -> by (eapply points_used_fun; [exact (fa_pts _ _ _ _ _ _ _ _ _ _ _ _ _ F)|exact T2]).
  assert (oc_tr o' = t) as ET. { pose proof (fa_tr _ _ _ _ _ _ _ _ _ _ _ _ _ F) as Y. cbn [with_penalty cf_tname cf_tns] in Y, T1. congruence. }
  assert (fm' = fm) as -> by (rewrite <- EM; symmetry; apply (fa_mesh _ _ _ _ _ _ _ _ _ _ _ _ _ F)).
  exists t, pl, q, y0, (map of_bound (flat_map (fun c => match c with SBounds b => b | _ => [] end) scs)). split; [exact T1|]. split; [exact T2|]. split.
  { pose proof (fa_lfm _ _ _ _ _ _ _ _ _ _ _ _ _ F) as L. rewrite (fa_ns _ _ _ _ _ _ _ _ _ _ _ _ _ F) in L. rewrite ET in L. apply (bounds_expand read_csv fm); [exact X|exact L|]. intros i j Hi Hj. split; [rewrite <- ET; apply (fa_hm _ _ _ _ _ _ _ _ _ _ _ _ _ F); [exact Hi|now rewrite ET]|]. rewrite L. apply stage_lt; [exact Hi|exact Hj|lia]. }
  cbv zeta in T3. cbn [with_penalty cf_bcs cf_bounds cf_cyclic cf_noncyclic cf_con cf_n cf_scales cf_pen] in T3. rewrite ML, E1, E2, E3 in T3. unfold bounds_asked in T3. rewrite map_app in T3.
  intros cyc fwd bounds bcs. exact T3.
Qed.
Print Assumptions C52_solve.
