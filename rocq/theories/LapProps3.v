(** C52 continued: the initial guess. *)
From Verif Require Import Base RBase TreeModel UtilsModel UtilsProofs UtilsProofs2 IoModel CollocModel CollocProofs CollocProps MeshModel MeshProps OcpModel OcpProofs OcpSpec OcpProps NlpModel NlpSpec NlpProofs
  AlgModel AlgSpec AlgProofs ConvSpec CyclicSpec ObjSpec BoundModel BoundSpec BoundProofs ScaleModel ScaleSpec BuildModel BuildSpec BuildProofs BuildProofs2 BuildProofs3 BuildProofs4 BuildProofs5 BuildProofs6 BuildProps
  TrackModel TrackSpec TrackProofs TrackProps LapModel LapSpec LapProofs LapProps LapProps2 GuessProofs.

Lemma map2_nth : forall A B C (f : A -> B -> C) a b i da db dc, List.length a = List.length b -> (i < List.length a)%nat -> nth i (map2 f a b) dc = f (nth i a da) (nth i b db).
Proof. intros A B C f. induction a as [|x a IH]; intros [|y b] i da db dc L Hi; cbn in *; try lia. destruct i as [|i]; cbn; [reflexivity|]. apply IH; lia. Qed.
Lemma nth_repeat_in : forall A (v : A) n i d, (i < n)%nat -> nth i (repeat v n) d = v.
Proof. intros A v. induction n as [|n IH]; intros i d Hi; [lia|]. destruct i; cbn; [reflexivity|apply IH; lia]. Qed.
Lemma travel_time : forall d v, v <> 0 -> d <> [] -> let time := cumsum (0 :: map (fun q => q / v) (diff1 d)) in List.length time = List.length d /\ forall s, (s < List.length d)%nat -> nth s time 0 = (nth s d 0 - nth 0 d 0) / v.
Proof.
  intros d v Hv Hd time. assert (1 <= List.length d)%nat as H1 by (destruct d; [congruence|cbn; lia]). split; [unfold time; rewrite cumsum0_len, map_length, diff1_len; lia|]. induction s as [|s IH]; intro Hs.
  - change (nth 0 time 0) with (vget 0 time). unfold time. rewrite cumsum0_0. field. exact Hv.
  - change (nth (S s) time 0) with (vget (S s) time). unfold time. rewrite cumsum0_step by (rewrite map_length, diff1_len; lia). fold time. change (vget s time) with (nth s time 0). rewrite IH by lia.
    rewrite vget_map by (rewrite diff1_len; lia). rewrite diff1_get by lia. unfold vget. field. exact Hv.
Qed.
Lemma column_ok : forall i col (v : list R) n, List.length col = n -> set_column i col (repeat v n) = Ok (map (fun c => upd i c v) col).
Proof.
  intros i col v n L. unfold set_column. rewrite repeat_length, L, Nat.eqb_refl. f_equal. subst n. induction col as [|c col IH]; [reflexivity|]. cbn [List.length repeat map2 map]. now f_equal.
Qed.
Lemma column_ok2 : forall i j (col col' v : list R), List.length col = List.length col' -> set_column i col (map (fun c => upd j c v) col') = Ok (map2 (fun a c => upd i a (upd j c v)) col col').
Proof.
  intros i j col col' v L. unfold set_column. rewrite map_length, L, Nat.eqb_refl. f_equal. revert col' L. induction col as [|c col IH]; intros [|c' col'] L; try discriminate; [reflexivity|]. cbn. f_equal. apply IH. now injection L.
Qed.

Lemma const_state : forall q tm, In q lap_states -> q <> "time" -> dget q [("time", 0); ("n", 0); ("eta", 0); ("vx", 50); ("vy", 0); ("yaw_rate", 0); ("wheel_speed_fl", 50 / (33 / 100)); ("wheel_speed_fr", 50 / (33 / 100)); ("wheel_speed_rl", 50 / (33 / 100)); ("wheel_speed_rr", 50 / (33 / 100))] = Some (guess_state tm q).
Proof. intros q tm H N. unfold lap_states in H. repeat (destruct H as [<-|H]; [first [congruence|reflexivity]|]). destruct H. Qed.
Lemma const_input : forall q, In q lap_inputs -> dget q [("throttle", 0); ("brake", 0); ("steer", 0); ("ax", 0); ("ay", 0); ("track_curvature", 0); ("track_heading", 0)] = Some 0.
Proof. intros q H. unfold lap_inputs in H. repeat (destruct H as [<-|H]; [reflexivity|]). destruct H. Qed.

(** For every history of successful calls: the guess has one value for every variable, drives along the centre line of the track in force at 50 m/s, and
    satisfies the model (derivatives and outputs) at every stage. *)
Theorem C52_guess : forall roots read_csv P (M : smodel P) c first p cs l f,
  let cfg := lc_sim c in lc_track c = Some first -> oracle_ok roots (cf_tns cfg) -> (1 <= cf_n cfg)%nat -> model_ok M (cf_con cfg) ->
  incl (m_states M) lap_states -> In "time" (m_states M) -> incl (m_inputs M) lap_inputs -> In "track_curvature" (m_inputs M) -> In "track_heading" (m_inputs M) ->
  lap_history roots read_csv M c p cs = Ok l -> Forall lplain cs -> Forall (good_track read_csv) (LTrack first :: cs) -> reads read_csv (track_asked first cs) f ->
  let o := a_o (l_a l) in
  exists x t pl, get_init_guess M l = Ok x /\ List.length x = num_dec (oc_op o) /\ make_transcription roots (cf_tname cfg) (cf_tns cfg) = Ok t /\ points_used (cf_n cfg) (cf_points cfg) pl /\
    let dist i j := (nth i pl 0 + unit_point t j * interval_length pl i) * road_length f in
    forall i j, (i < cf_n cfg)%nat -> (j < t_stages t)%nat -> let s := stage_of t i j in
      (forall nm, In nm (m_states M) -> val o x "states" nm s (guess_state ((dist i j - dist 0%nat 0%nat) / 50) nm)) /\
      (exists k h lf r, road_at f (dist i j) k h lf r /\ forall nm, In nm (m_inputs M) -> val o x "inputs" nm s (guess_input k h nm)) /\
      exists ds di sd out, holds o x "states" (m_states M) s ds /\ holds o x "inputs" (m_inputs M) s di /\ m_forward M (params_asked p (other_calls cs)) ds di (dist i j) = Ok (sd, out) /\
        (forall nm, In nm (m_states M) -> exists v, dget nm sd = Some v /\ val o x "states_dot" nm s v) /\ (forall nm, In nm (cf_con cfg) -> exists v, dget nm out = Some v /\ val o x "con_outputs" nm s v).
Proof.
  intros roots read_csv P M c first p cs l f cfg EC HO Hn MO IS IT II IC IH' HH HP HG HF o.
  assert (m_states M <> []) as Hst by (intro X; rewrite X in IT; exact IT).
  destruct (lap_history_expand roots read_csv P M c first p cs l EC HO Hn Hst HH HP HG) as (scs & fm & X & EH & PL & EF & EM & ML & tk & ETK & ERD). specialize (ML f HF).
  destruct (the_facts roots P M (with_penalty cfg) (Some 1) p scs (l_a l) HO Hn Hst MO EH PL) as (o' & fm' & pl & ops & h0 & F).
  assert (fm' = fm) as -> by (rewrite <- EM; symmetry; apply (fa_mesh _ _ _ _ _ _ _ _ _ _ _ _ _ F)).
  assert (params_asked p scs = params_asked p (other_calls cs)) as E2 by (apply (latest_expand read_csv P (fun c => match c with SParams p => Some p | _ => None end) (fun _ => eq_refl) (fun _ => eq_refl) fm _ _ X)).
  pose proof (fa_o _ _ _ _ _ _ _ _ _ _ _ _ _ F) as EO. pose proof (fa_built _ _ _ _ _ _ _ _ _ _ _ _ _ F) as BU. cbn [with_penalty cf_tname cf_tns cf_n cf_con cf_points] in BU. rewrite <- EO in BU. fold o in BU.
  pose proof (fa_lfm _ _ _ _ _ _ _ _ _ _ _ _ _ F) as LFM. pose proof (fa_ns _ _ _ _ _ _ _ _ _ _ _ _ _ F) as NS. pose proof (fa_hm _ _ _ _ _ _ _ _ _ _ _ _ _ F) as HM. pose proof (fa_tr _ _ _ _ _ _ _ _ _ _ _ _ _ F) as ETR. pose proof (fa_pts _ _ _ _ _ _ _ _ _ _ _ _ _ F) as PU.
  pose proof (fa_con _ _ _ _ _ _ _ _ _ _ _ _ _ F) as ECN. pose proof (fa_p _ _ _ _ _ _ _ _ _ _ _ _ _ F) as EPP. rewrite E2 in EPP. cbn [with_penalty cf_con cf_tname cf_tns cf_n cf_points] in ECN, ETR, PU, NS, HM. fold cfg in ECN, ETR, PU, NS, HM.
  rewrite <- EO in *. fold o in EF, EM, LFM, NS, HM, ETR. set (t := oc_tr o) in *. set (op := oc_op o) in *. set (nst := num_stages op) in *.
  destruct (asked_good read_csv cs first HG) as (f' & HF' & HD). assert (f' = f) as -> by (eapply reads_fun; eassumption).
  destruct (track_ok read_csv _ f HF HD) as (tk' & ERD' & ETD & RP & RD). rewrite ERD in ERD'. injection ERD' as <-.
  destruct (track_bounds_ok read_csv _ f tk o fm HF HD ERD EF) as (kk & hh & lf & rr & AR & _ & EK & EHd). set (L := road_length f) in *. set (d := map (fun v => v * L) fm) in *.
  assert (List.length d = nst) as Ld by (unfold d; rewrite map_length; exact LFM). assert (1 <= nst)%nat as Hnst by (rewrite NS, Nat.add_1_r; apply le_n_S, Nat.le_0_l).
  destruct (built_ok _ _ _ _ _ _ _ _ _ _ BU) as (OK & _ & _ & _ & _ & Es & _ & _ & _ & Ei & _). fold op in Es, Ei.
  destruct AR as [A1 A2 A3 A4 A5]. rewrite LFM in *.
  (* the arrays *)
  set (cst := [("time", 0); ("n", 0); ("eta", 0); ("vx", 50); ("vy", 0); ("yaw_rate", 0); ("wheel_speed_fl", 50 / (33 / 100)); ("wheel_speed_fr", 50 / (33 / 100)); ("wheel_speed_rl", 50 / (33 / 100)); ("wheel_speed_rr", 50 / (33 / 100))] : dict R).
  set (cin := [("throttle", 0); ("brake", 0); ("steer", 0); ("ax", 0); ("ay", 0); ("track_curvature", 0); ("track_heading", 0)] : dict R).
  destruct (make_vector_ok (m_states M) cst IS) as (sv & ESV & LSV & PSV). destruct (make_vector_ok (m_inputs M) cin II) as (iv & EIV & LIV & PIV).
  destruct (travel_time d 50 ltac:(lra)) as [LT VT]; [intro Z; rewrite Z in Ld; cbn in Ld; lia|]. set (time := cumsum (0 :: map (fun q => q / 50) (diff1 d))) in *.
  pose proof (mo_names _ _ MO) as (_ & ND & _). assert (NoDup (m_states M)) as ND1 by (apply (ND "states"); cbn; tauto). assert (NoDup (m_inputs M)) as ND2 by (apply (ND "inputs"); cbn; tauto).
  destruct (In_nth_error _ _ IT) as [ti Ti]. destruct (In_nth_error _ _ IC) as [ci Ci]. destruct (In_nth_error _ _ IH') as [hi Hi'].
  set (SS := map (fun c => upd ti c sv) time). set (UU := map2 (fun a c => upd hi a (upd ci c iv)) hh kk).
  assert (shaped nst (List.length (m_states M)) SS) as SHS. { split; [unfold SS; rewrite map_length; congruence|]. apply Forall_forall. intros r Hr. unfold SS in Hr. apply in_map_iff in Hr. destruct Hr as (z & <- & _). now rewrite upd_length. }
  assert (shaped nst (List.length (m_inputs M)) UU) as SHU.
  { split; [unfold UU; rewrite map2_length; congruence|]. apply Forall_forall. intros r Hr. apply (In_nth _ _ []) in Hr. destruct Hr as (k & Hk & <-). unfold UU in *. rewrite map2_length in Hk by congruence. rewrite (map2_nth _ _ _ _ _ _ _ 0 0) by congruence. now rewrite !upd_length. }
  destruct (flat_guess _ _ _ _ _ _ _ M (cf_con cfg) BU MO SS UU d (params_asked p (other_calls cs)) [] SHS SHU Ld eq_refl) as (ret & x & ER & EX & LX & V1 & V2 & _ & VM).
  exists x, t, pl. split.
  { unfold get_init_guess. rewrite ETK. fold o. cbv zeta. unfold distance_mesh. rewrite EF. cbn [bind]. rewrite ETD. cbn [bind]. fold L d. rewrite ECN. change (names_of M (cf_con cfg) "states") with (m_states M). change (names_of M (cf_con cfg) "inputs") with (m_inputs M). fold cst cin time.
    rewrite ESV. cbn [bind]. unfold index_in_group. cbn [String.eqb Ascii.eqb Bool.eqb]. fold op.
    assert (UtilsModel.group_names op "states" = Ok (m_states M)) as -> by (rewrite <- Es; apply ScaleProofs.group_names_ok; [apply (oo_dvo o OK)|apply (oo_sg o OK)|cbn; tauto]). cbn [bind]. rewrite (index_of_nth _ ND1 _ _ Ti). cbn [bind].
    fold nst. rewrite (column_ok ti time sv nst) by congruence. cbn [bind]. fold SS. rewrite EIV. cbn [bind]. unfold get_var_index. rewrite (index_of_nth _ ND2 _ _ Ci). cbn [bind]. rewrite EK. cbn [bind]. rewrite (column_ok ci kk iv nst) by congruence. cbn [bind].
    rewrite (index_of_nth _ ND2 _ _ Hi'). cbn [bind]. rewrite EHd. cbn [bind]. rewrite column_ok2 by congruence. cbn [bind]. fold UU. rewrite EPP. rewrite ER. cbn [bind]. exact EX. }
  split; [exact LX|]. split; [exact ETR|]. split; [exact PU|]. intros dist i j Hi Hj s.
  assert (s < nst)%nat as Hs by (rewrite NS; unfold s; apply LapProps.stage_lt; lia).
  assert (forall i j, (i < cf_n cfg)%nat -> (j < t_stages t)%nat -> nth (stage_of t i j) d 0 = dist i j) as HDD.
  { intros i' j' Hi1 Hj1. assert (stage_of t i' j' < nst)%nat as Hs1 by (rewrite NS; apply LapProps.stage_lt; lia). unfold d. rewrite (nth_map_in _ _ _ _ _ _ 0) by congruence. rewrite HM by assumption. reflexivity. }
  assert (nth 0 d 0 = dist 0%nat 0%nat) as HD0 by (apply (HDD 0%nat 0%nat); lia).
  split; [|split].
  - intros q Hq. destruct (In_nth_error _ _ Hq) as [cq Cq]. assert (cq < List.length (m_states M))%nat as Hcq by (apply nth_error_Some; congruence).
    assert (nth cq (nth s SS []) 0 = guess_state ((dist i j - dist 0%nat 0%nat) / 50) q) as <-; [|apply V1; assumption].
    unfold SS. rewrite (nth_map_in _ _ _ _ _ _ 0) by congruence. rewrite upd_nth. destruct (Nat.eqb_spec cq ti) as [->|NE].
    + rewrite LSV. destruct (Nat.ltb_spec ti (List.length (m_states M))); [|lia]. rewrite Ti in Cq. injection Cq as <-. unfold guess_state. cbn [String.eqb Ascii.eqb Bool.eqb]. rewrite VT by congruence. unfold s. rewrite (HDD i j) by assumption. now rewrite HD0.
    + assert (q <> "time") as NT. { intros ->. apply NE. apply (NoDup_nth_error (m_states M)); [exact ND1|exact Hcq|congruence]. }
      pose proof (PSV cq q Cq) as PQ. unfold cst in PQ. rewrite (const_state q ((dist i j - dist 0%nat 0%nat) / 50) (IS q Hq) NT) in PQ. now apply nth_error_nth.
  - exists (nth s kk 0), (nth s hh 0), (nth s lf 0), (nth s rr 0). split.
    + destruct (A5 s Hs) as [RA _]. fold L in RA. unfold s in RA at 1. rewrite HM in RA by assumption. exact RA.
    + intros q Hq. destruct (In_nth_error _ _ Hq) as [cq Cq]. assert (cq < List.length (m_inputs M))%nat as Hcq by (apply nth_error_Some; congruence).
      assert (nth cq (nth s UU []) 0 = guess_input (nth s kk 0) (nth s hh 0) q) as <-; [|apply V2; assumption].
      unfold UU. rewrite (map2_nth _ _ _ _ _ _ _ 0 0) by congruence. rewrite !upd_nth. unfold guess_input. rewrite upd_length, LIV.
      destruct (Nat.eqb_spec cq hi) as [->|NH]; [rewrite Hi' in Cq; injection Cq as <-; destruct (Nat.ltb_spec hi (List.length (m_inputs M))); [reflexivity|lia]|].
      destruct (Nat.eqb_spec cq ci) as [->|NC]; [rewrite Ci in Cq; injection Cq as <-; destruct (Nat.ltb_spec ci (List.length (m_inputs M))); [reflexivity|lia]|].
      assert (q <> "track_heading") as NQ1 by (intros ->; apply NH; apply (NoDup_nth_error (m_inputs M)); [exact ND2|exact Hcq|congruence]). assert (q <> "track_curvature") as NQ2 by (intros ->; apply NC; apply (NoDup_nth_error (m_inputs M)); [exact ND2|exact Hcq|congruence]).
      destruct (String.eqb_spec q "track_curvature"); [contradiction|]. destruct (String.eqb_spec q "track_heading"); [contradiction|]. pose proof (PIV cq q Cq) as PQ. unfold cin in PQ. rewrite (const_input q (II q Hq)) in PQ. now apply nth_error_nth.
  - destruct (VM s Hs) as (sd & out & Q1 & Q2 & Q3 & Q4 & Q5). exists (combine (m_states M) (nth s SS [])), (combine (m_inputs M) (nth s UU [])), sd, out. rewrite <- (HDD i j) by assumption. fold s. auto.
Qed.
Print Assumptions C52_guess.
