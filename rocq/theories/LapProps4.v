(** C52, continued: the configuration of a laptime simulation, exact derivatives, a problem that meets all hypotheses, and findings. *)
From Verif Require Import Base RBase TreeModel UtilsModel IoModel CollocModel CollocProps MeshModel MeshProps OcpModel OcpSpec NlpModel NlpSpec AlgModel AlgSpec ConvModel ConvSpec CyclicSpec BoundModel BoundSpec ScaleModel ScaleSpec
  BuildModel BuildSpec BuildProofs BuildProofs4 BuildProofs5 BuildProps BuildProps2 BuildProps3 TrackModel TrackSpec LapModel LapSpec LapProofs LapProps LapProps2 LapProps3.

(** ** The configuration *)
Lemma noncyclic_ok : forall given, noncyclic_of given (fold_left (fun l name => if mem name l then l else l ++ [name]) ["states.time"; "inputs.track_heading"] given).
Proof.
  intros given. cbn [fold_left]. unfold noncyclic_of.
  assert (forall nm l, exists tl, (if mem nm l then l else l ++ [nm]) = l ++ tl /\ (forall e, In e tl -> e = nm) /\ In nm (l ++ tl) /\ (NoDup l -> NoDup (l ++ tl))) as K.
  { intros nm l. destruct (mem nm l) eqn:E.
    - exists []. rewrite app_nil_r. split; [reflexivity|]. split; [intros e []|]. split; [now apply IoProofs.mem_In|auto].
    - exists [nm]. split; [reflexivity|]. split; [now intros e [<-|[]]|]. split; [apply in_or_app; right; now left|]. intros N. apply NoDup_app_intro; [exact N|repeat constructor; intros []|].
      intros e He [<-|[]]. apply IoProofs.mem_In in He. congruence. }
  destruct (K "states.time" given) as (t1 & -> & A1 & B1 & C1). destruct (K "inputs.track_heading" (given ++ t1)) as (t2 & -> & A2 & B2 & C2).
  split; [|split; [auto|]].
  - intros e. rewrite !in_app_iff. split.
    + intros [[H|H]|H]; [now left|right; left; auto|right; right; auto].
    + intros [H|[-> | ->]]; [tauto| |].
      * apply in_app_or in B1. tauto.
      * apply in_app_or in B2. destruct B2 as [B2|B2]; [apply in_app_or in B2; tauto|tauto].
  - rewrite <- app_assoc, firstn_app, Nat.sub_diag. cbn [firstn]. now rewrite app_nil_r, firstn_all.
Qed.
Theorem C52_config : forall track n points transcription is_cyclic non_cyclic con bounds bcs scales,
  let made := make_ltc track n points transcription is_cyclic non_cyclic con bounds bcs scales in
  (track = None -> made = Raise ValueError) /\
  forall f, track = Some f -> exists c, made = Ok c /\ lc_track c = Some f /\ let s := lc_sim c in
    as_given n 99%nat (cf_n s) /\ cf_points s = points /\ as_given transcription ("Trapezoidal", None) (cf_tname s, cf_tns s) /\ as_given is_cyclic false (cf_cyclic s) /\
    (exists given, as_given non_cyclic [] given /\ noncyclic_of given (cf_noncyclic s)) /\ as_given con usual_outputs (cf_con s) /\
    as_given bounds (map (fun '(g, nm, l, u) => {| bg := g; bn := nm; bv := BSc l u |}) usual_bounds) (cf_bounds s) /\ as_given bcs [usual_start] (cf_bcs s) /\
    as_given scales (map (fun '(g, nm, v) => {| sc_g := g; sc_n := nm; sc_v := v |}) usual_scales) (cf_scales s) /\ cf_pen s = None.
Proof.
  intros track n points transcription is_cyclic non_cyclic con bounds bcs scales made. split; [intros ->; reflexivity|]. intros f ->.
  eexists. split; [reflexivity|]. split; [reflexivity|]. intros s. unfold s. clear s made.
  cbn [lc_sim with_noncyclic cf_n cf_points cf_tname cf_tns cf_cyclic cf_noncyclic cf_con cf_bounds cf_bcs cf_scales cf_pen]. rewrite <- surjective_pairing.
  repeat match goal with |- _ /\ _ => split end; try (destruct n, transcription, is_cyclic, con, bounds, bcs, scales; reflexivity).
  exists (or_default non_cyclic []). split; [destruct non_cyclic; reflexivity|]. apply noncyclic_ok.
Qed.
Print Assumptions C52_config.

(** ** The default configuration is in order, for an open and for a cyclic lap *)
Lemma default_ok : forall P (M : smodel P) f cyc c, m_states M = lap_states -> m_inputs M = lap_inputs -> model_ok M usual_outputs ->
  make_ltc (Some f) None None None cyc None None None None None = Ok c -> config_ok M (lc_sim c) (Some 1) trapezoidal.
Proof.
  intros P M f cyc c ES EI MO E. injection E as <-.
  constructor; cbn [lc_sim with_noncyclic cf_n cf_points cf_tname cf_tns cf_cyclic cf_noncyclic cf_con cf_bounds cf_bcs cf_scales cf_pen or_default].
  - lia.
  - now rewrite ES.
  - exact MO.
  - discriminate.
  - intros s X. injection X as <-. split; [lra|]. rewrite ES. cbn. tauto.
  - discriminate.
  - intros _. rewrite ES, EI. split; [repeat constructor; cbn; intuition discriminate|]. split; [vm_compute; discriminate|].
    intros e [<-|[<-|[]]]; [exists "states", "time"|exists "inputs", "track_heading"]; (split; [reflexivity|]); [left|right]; cbn; tauto.
  - rewrite ES, EI. change default_bounds with (map (fun '(g, nm, l, u) => {| bg := g; bn := nm; bv := BSc l u |}) usual_bounds). change default_con with usual_outputs.
    pose proof PI_RGT_0 as HP. intros b Hb. apply in_map_iff in Hb. destruct Hb as ((((g & nm) & l) & u) & <- & H). cbn [of_bound bg bn bv]. unfold setting_ok. cbn [k_g k_n k_stage k_v].
    split; [|split; [intros _; exact I|]].
    + unfold usual_bounds in H. cbn [In] in H. unfold known_var. repeat (destruct H as [H|H]; [injection H as <- <- <- <-; cbn; tauto|]). contradiction.
    + change (le_bound l u). unfold usual_bounds in H. cbn [In] in H. repeat (destruct H as [H|H]; [injection H as <- <- <- <-; cbn [le_bound]; first [exact I|lra]|]). contradiction.
  - rewrite ES, EI. intros b [<-|[]]. split; [left; cbn; tauto|]. split; [cbn; lia|cbn; lra].
  - rewrite ES, EI. intros b Hb. unfold scale_ok, known_var. cbn in Hb. repeat (destruct Hb as [<-|Hb]; [cbn; tauto|]). contradiction.
Qed.
Theorem C52_default : forall roots read_csv P (M : smodel P) name f p cyc,
  oracle_ok roots None -> m_states M = lap_states -> m_inputs M = lap_inputs -> model_ok M usual_outputs -> reads read_csv name f -> drivable f ->
  exists c l, make_ltc (Some name) None None None cyc None None None None None = Ok c /\ lap_construct roots read_csv M c p = Ok l /\ num_stages (oc_op (a_o (l_a l))) = 100%nat.
Proof.
  intros roots read_csv P M name f p cyc HO ES EI MO HR HD.
  destruct (proj2 (C52_config (Some name) None None None cyc None None None None None) name eq_refl) as (c & Ec & Et & En & _ & Etr & _).
  exists c. pose proof (default_ok P M name cyc c ES EI MO Ec) as CO.
  assert (cf_tname (lc_sim c) = "Trapezoidal" /\ cf_tns (lc_sim c) = None) as [E1 E2] by (cbn [as_given] in Etr; now injection Etr).
  destruct (C52_accepts roots read_csv P M c name p [] trapezoidal) as (l & El); try assumption.
  - now rewrite E2.
  - now rewrite E1, E2.
  - rewrite EI. cbn; tauto.
  - rewrite ES. cbn; tauto.
  - rewrite EI. cbn; tauto.
  - rewrite EI. cbn; tauto.
  - apply Forall_cons; [|apply Forall_nil]. exists f. tauto.
  - exists l. split; [exact Ec|]. unfold lap_history in El. destruct (lap_construct roots read_csv M c p) as [l'|] eqn:EL; [|discriminate]. cbn in El. injection El as <-. split; [reflexivity|].
    assert (lap_history roots read_csv M c p [] = Ok l') as EH by (unfold lap_history; now rewrite EL).
    assert (oracle_ok roots (cf_tns (lc_sim c))) as HO' by now rewrite E2. assert ((1 <= cf_n (lc_sim c))%nat) as Hn by (cbn [as_given] in En; rewrite En; lia).
    assert (m_states M <> []) as Hst by now rewrite ES. assert (cf_con (lc_sim c) = usual_outputs) as Econ by now injection Ec as <-.
    destruct (lap_history_expand roots read_csv P M c name p [] l' Et HO' Hn Hst EH) as (scs & fm & _ & HH & HP & _).
    + constructor.
    + constructor; [exists f; tauto|constructor].
    + destruct (BuildProofs6.the_facts roots P M (with_penalty (lc_sim c)) (Some 1) p scs (l_a l') HO' Hn Hst) as (o & fm' & pl & ops & h & F); [cbn [with_penalty cf_con]; now rewrite Econ|exact HH|exact HP|].
      rewrite (BuildProofs6.fa_o _ _ _ _ _ _ _ _ _ _ _ _ _ F), (BuildProofs6.fa_ns _ _ _ _ _ _ _ _ _ _ _ _ _ F). pose proof (BuildProofs6.fa_tr _ _ _ _ _ _ _ _ _ _ _ _ _ F) as T.
      cbn [with_penalty cf_n cf_tname cf_tns] in *. rewrite E1, E2 in T. injection T as <-. cbn [as_given] in En. rewrite En. reflexivity.
Qed.
Print Assumptions C52_default.

(** ** Exact derivatives for IPOPT *)
Theorem C52_derivatives : forall roots read_csv P (M : smodel P) c first p cs l,
  let cfg := lc_sim c in lc_track c = Some first -> oracle_ok roots (cf_tns cfg) -> (1 <= cf_n cfg)%nat -> model_ok M (cf_con cfg) -> In "time" (m_states M) -> In "steer" (m_inputs M) ->
  lap_history roots read_csv M c p cs = Ok l -> Forall lplain cs -> Forall (good_track read_csv) (LTrack first :: cs) ->
  Forall (fun c => 0 < sc_v c) (scales_asked (cf_scales cfg) (other_calls cs)) -> model_derivatives M (cf_con cfg) ->
  let N := num_dec (oc_op (a_o (l_a l))) in
  exists pr, problem_of M (l_a l) = Ok pr /\ p_n pr = N /\
  exists F G C J jr jc, prob_jacobianstructure pr = Ok (jr, jc) /\
    (forall x, List.length x = N -> prob_objective pr x = Ok (F x) /\ prob_gradient pr x = Ok (G x) /\ prob_constraints pr x = Ok (C x) /\ prob_jacobian pr x = Ok (J x)) /\
    is_gradient N F (fun x j => vget j (G x)) /\ is_jacobian N (num_con pr) C (fun x => tri jr jc (J x)) /\
    forall fac lam, List.length lam = num_con pr -> exists V hr hc, snd (prob_hessianstructure pr) = Ok (hr, hc) /\
      (forall x, List.length x = N -> snd (prob_hessian pr x lam fac) = Ok (V x)) /\
      exists g, is_gradient N (fun x => fac * F x + vdot lam (C x)) g /\ forall x i j, List.length x = N -> (i < N)%nat -> (j < N)%nat -> (i <= j)%nat -> pderiv (fun y => g y i) x j (tri hr hc (V x) i j).
Proof.
  intros roots read_csv P M c first p cs l cfg EC HO Hn MO HT HS HH HP HG HSc MD N.
  assert (m_states M <> []) as Hst by (intro X; rewrite X in HT; exact HT).
  destruct (lap_history_expand roots read_csv P M c first p cs l EC HO Hn Hst HH HP HG) as (scs & fm & X & EH & PL & _).
  apply (C51_derivatives roots P M (with_penalty cfg) (Some 1) p scs (l_a l)); auto.
  - intros w E. cbn in E. injection E as <-. split; [cbn; repeat constructor; intros []|]. intros q [<-|[]]. exact HS.
  - cbn [with_penalty cf_scales]. replace (scales_asked (cf_scales cfg) scs) with (scales_asked (cf_scales cfg) (other_calls cs)); [exact HSc|].
    symmetry. exact (latest_expand read_csv _ _ (fun _ => eq_refl) (fun _ => eq_refl) fm _ _ X _).
  - left. discriminate.
Qed.
Print Assumptions C52_derivatives.

(** ** Findings *)
Lemma last_stage : forall n q, (1 <= n)%nat -> ((n - 1) * q + q = n * q + 1 - 1)%nat.
Proof. intros [|n] q H; [lia|]. cbn [Nat.mul]. rewrite Nat.sub_succ, Nat.sub_0_r. lia. Qed.
(** In a cyclic lap track_curvature is among the cyclic variables, and at the same time it is fixed to that of the road at the first and at the last stage. *)
Theorem C52_cyclic : forall roots read_csv P (M : smodel P) c first p cs l f t pl bs x,
  let cfg := lc_sim c in lc_track c = Some first -> oracle_ok roots (cf_tns cfg) -> (1 <= cf_n cfg)%nat -> model_ok M (cf_con cfg) ->
  In "n" (m_states M) -> In "track_curvature" (m_inputs M) -> In "track_heading" (m_inputs M) -> cf_cyclic cfg = true -> ~ In "inputs.track_curvature" (cf_noncyclic cfg) ->
  lap_history roots read_csv M c p cs = Ok l -> Forall lplain cs -> Forall (good_track read_csv) (LTrack first :: cs) -> reads read_csv (track_asked first cs) f ->
  make_transcription roots (cf_tname cfg) (cf_tns cfg) = Ok t -> lap_bounds read_csv t (cf_n cfg) pl (LTrack first :: cs) bs ->
  let o := a_o (l_a l) in let n := cf_n cfg in let nst := (n * (t_stages t - 1) + 1)%nat in
  trajectory o (m_states M) (m_inputs M) (cf_con cfg) (m_residuals M) (m_forward M (params_asked p (other_calls cs))) t n pl (Some (road_length f))
    (Some (cyclic_pairs (m_states M) (m_inputs M) (cf_noncyclic cfg))) (map of_bound (cf_bounds cfg) ++ bs) (bcs_asked (cf_bcs cfg) (other_calls cs)) x ->
  untouched (cf_bcs cfg) cs nst "inputs" "track_curvature" 0 -> untouched (cf_bcs cfg) cs nst "inputs" "track_curvature" (nst - 1) ->
  forall k h lf r k' h' lf' r',
    road_at f (nth 0 pl 0 * road_length f) k h lf r -> road_at f (nth n pl 0 * road_length f) k' h' lf' r' -> k = k'.
Proof.
  intros roots read_csv P M c first p cs l f t pl bs x cfg EC HO Hn MO Hns Htc Hth Hcy Hnc HH HP HG HF HT HB o n nst TJ U0 U1 k h lf r k' h' lf' r' R0 R1.
  assert ((2 <= t_stages t)%nat) as H2. { exact (MeshProofs.tr_two _ (MeshProofs.tr_ok_make _ _ _ _ HO HT)). }
  set (m := (t_stages t - 1)%nat). assert (unit_point t 0 = 0 /\ unit_point t m = 1) as [P0 P1].
  { pose proof (MeshProofs.tr_ok_make _ _ _ _ HO HT) as K. pose proof (MeshProofs.tr_first _ K) as K1. pose proof (MeshProofs.tr_last _ K) as K2. unfold MeshProofs.rel, is_lgr in K1, K2. unfold unit_point, m. destruct (t_points t); auto. }
  destruct (asked_good read_csv cs first HG) as (f' & HR & HD). rewrite (reads_fun read_csv _ _ _ HR HF) in HD.
  pose proof (C52_on_track roots read_csv P M c first p cs l f t pl bs x) as OT. cbv zeta in OT. fold cfg in OT. rewrite Hcy in OT.
  specialize (fun i j => OT i j EC HO Hn MO Hns Htc Hth HH HP HG HF HT HB TJ).
  destruct (OT 0%nat 0%nat) as (k0 & h0 & l0 & r0 & Q0 & V0 & _); [lia|lia|]. destruct (OT (n - 1)%nat m) as (k1 & h1 & l1 & r1 & Q1 & V1 & _); [unfold n; lia|unfold m; lia|].
  rewrite P0, Rmult_0_l, Rplus_0_r in Q0. rewrite P1, Rmult_1_l in Q1. unfold interval_length in Q1. replace (S (n - 1)) with n in Q1 by (unfold n; lia).
  replace (nth (n - 1) pl 0 + (nth n pl 0 - nth (n - 1) pl 0)) with (nth n pl 0) in Q1 by lra.
  destruct (road_unique f _ _ _ _ _ _ _ _ _ HD R0 Q0) as (-> & _). destruct (road_unique f _ _ _ _ _ _ _ _ _ HD R1 Q1) as (-> & _).
  specialize (V0 U0). assert (stage_of t (n - 1) m = nst - 1)%nat as ES by (unfold stage_of, nst, m; apply last_stage; exact Hn).
  rewrite ES in V1. specialize (V1 U1).
  destruct (tj_cyclic _ _ _ _ _ _ _ _ _ _ _ _ _ _ TJ _ "inputs" "track_curvature" eq_refl) as (v & W0 & W1).
  { unfold cyclic_pairs. apply filter_In. split; [apply in_or_app; right; now apply in_map|]. cbn [fst snd]. change (String.append _ _) with "inputs.track_curvature".
    destruct (existsb _ _) eqn:E; [|reflexivity]. apply IoProofs.mem_In in E. contradiction. }
  replace (nst - 1)%nat with (n * (t_stages t - 1))%nat in V1 by (unfold nst; now rewrite Nat.add_sub).
  rewrite (val_fun _ _ _ _ _ _ _ V0 W0), (val_fun _ _ _ _ _ _ _ V1 W1). reflexivity.
Qed.
Print Assumptions C52_cyclic.

(** a road whose curvature is 0 at its first and 1/2 at its last point *)
Definition bent : track_file := {| tf_x := [0; 1; 2; 2]; tf_y := [0; 0; 0; 1]; tf_left := [3; 3; 3; 3]; tf_right := [3; 3; 3; 3] |}.
Lemma bent_drivable : drivable bent.
Proof.
  destruct TrackProps4.C45_curvilinear_nonvacuous as (A & B & _). constructor; cbn [bent tf_x tf_y tf_left tf_right]; auto. intros [|[|[|[|i]]]] Hi; [cbn; lra ..|cbn in Hi; lia].
Qed.
Lemma one_dist : forall a b c d, (c - a) * (c - a) + (d - b) * (d - b) = 1 -> pdist a b c d = 1.
Proof. intros a b c d E. unfold pdist. rewrite E. apply sqrt_1. Qed.
Lemma bent_length : road_length bent = 3.
Proof. unfold road_length. cbn [bent tf_x tf_y List.length seq map Nat.sub nth rsum fold_right]. rewrite !one_dist by lra. cbn. lra. Qed.
Lemma bent_road : exists s k h, curvilinear (tf_x bent) (tf_y bent) s k h /\ List.length s = 4%nat /\ vget 0 s = 0 /\ vget 3 s = 3 /\ vget 0 k = 0 /\ vget 3 k = 1 / 2.
Proof.
  destruct bent_drivable as [A B _ _ _]. destruct (TrackProps4.C45_curvilinear _ _ A B) as (s & k & h & _ & CV). exists s, k, h. split; [exact CV|].
  destruct CV as (Ls & Lk & Lh & Z & D & (x1 & y1 & x2 & y2 & X1 & Y1 & X2 & Y2 & K) & _). cbn [bent tf_x tf_y List.length] in *.
  assert (vget 1 s = 1) as S1. { pose proof (D 0%nat ltac:(lia)) as E. rewrite one_dist in E by (cbn; lra). lra. }
  assert (vget 2 s = 2) as S2. { pose proof (D 1%nat ltac:(lia)) as E. rewrite one_dist in E by (cbn; lra). lra. }
  assert (vget 3 s = 3) as S3. { pose proof (D 2%nat ltac:(lia)) as E. rewrite one_dist in E by (cbn; lra). lra. }
  assert (forall f g, slopes s f g -> vget 0 g = vget 1 f - vget 0 f /\ vget 3 g = vget 3 f - vget 2 f /\ vget 1 g = (vget 2 f - vget 0 f) / 2 /\ vget 2 g = (vget 3 f - vget 1 f) / 2) as SL.
  { intros f g (_ & E0 & E3 & EM). rewrite Ls in E3, EM. cbn [Nat.sub] in E3. rewrite Z, S1 in E0. rewrite S2, S3 in E3. split; [lra|]. split; [lra|]. split.
    - destruct (EM 0%nat ltac:(lia)) as (a & b & c & Q & ->). pose proof (Q 0%nat ltac:(lia)) as Q0. pose proof (Q 1%nat ltac:(lia)) as Q1. pose proof (Q 2%nat ltac:(lia)) as Q2. rewrite Z in Q0. rewrite S1 in *. rewrite S2 in *. lra.
    - destruct (EM 1%nat ltac:(lia)) as (a & b & c & Q & ->). pose proof (Q 1%nat ltac:(lia)) as Q0. pose proof (Q 2%nat ltac:(lia)) as Q1. pose proof (Q 3%nat ltac:(lia)) as Q2. rewrite S1 in *. rewrite S2 in *. rewrite S3 in *. lra. }
  destruct (SL _ _ X1) as (a0 & a3 & a1 & a2). destruct (SL _ _ Y1) as (b0 & b3 & b1 & b2). destruct (SL _ _ X2) as (c0 & c3 & _). destruct (SL _ _ Y2) as (d0 & d3 & _).
  unfold vget in a0, a1, a2, a3, b0, b1, b2, b3. cbn [nth] in a0, a1, a2, a3, b0, b1, b2, b3. fold (vget 0 x1) (vget 1 x1) (vget 2 x1) (vget 3 x1) (vget 0 y1) (vget 1 y1) (vget 2 y1) (vget 3 y1) in *.
  split; [exact Ls|]. split; [exact Z|]. split; [exact S3|].
  split.
  - destruct (K 0%nat ltac:(lia)) as [V E]. cbv zeta in V, E. assert (vget 0 x1 * vget 0 y2 - vget 0 x2 * vget 0 y1 = 0) as W by (rewrite c0, d0, a0, a1, b0, b1; lra). rewrite W in E.
    apply Rmult_integral in E. destruct E as [E|E]; [exact E|]. pose proof (Rmult_lt_0_compat _ _ (Rmult_lt_0_compat _ _ V V) V). lra.
  - destruct (K 3%nat ltac:(lia)) as [V E]. cbv zeta in V, E. assert (vget 3 x1 * vget 3 y2 - vget 3 x2 * vget 3 y1 = 1 / 2) as W by (rewrite c3, d3, a3, a2, b3, b2; lra). rewrite W in E.
    replace (vget 3 x1 * vget 3 x1 + vget 3 y1 * vget 3 y1) with 1 in E by (rewrite a3, b3; lra). rewrite sqrt_1 in E. lra.
Qed.
Lemma bent_at : forall d, d = 0 \/ d = 3 -> exists k h l r, road_at bent d k h l r /\ k = if Req_EM_T d 0 then 0 else 1 / 2.
Proof.
  intros d Hd. destruct bent_road as (s & k & h & CV & Ls & Z0 & Z3 & K0 & K3).
  assert (grid s) as G. { split; [rewrite Ls; lia|]. intros i Hi. destruct CV as (_ & _ & _ & _ & D & _). specialize (D i). destruct bent_drivable as [(A1 & A2 & A3) _ _ _ _]. cbn [bent tf_x tf_y List.length] in D, A3. rewrite Ls in Hi. specialize (D Hi). specialize (A3 i Hi).
    assert (0 < pdist (vget i [0; 1; 2; 2]) (vget i [0; 0; 0; 1]) (vget (S i) [0; 1; 2; 2]) (vget (S i) [0; 0; 0; 1])) by (apply TrackProps2.pdist_pos; destruct A3; [left|right]; auto). lra. }
  assert (forall fp, List.length fp = 4%nat -> exists y, piecewise_linear s fp d y /\ (d = 0 -> y = vget 0 fp) /\ (d = 3 -> y = vget 3 fp)) as PL.
  { intros fp Lf. destruct (TrackProofs.np_interp_ok d s fp G ltac:(congruence)) as (y & _ & Q). exists y. split; [exact Q|]. destruct Q as (Q0 & Q1 & _). rewrite Ls in Q1. cbn [Nat.sub] in Q1. split; intros ->; [apply Q0|apply Q1]; lra. }
  pose proof CV as (_ & Lk & Lh & _). cbn [bent tf_x List.length] in Lk, Lh.
  destruct (PL k Lk) as (kv & P1 & E0 & E3). destruct (PL h Lh) as (hv & P2 & _). destruct (PL (tf_left bent) eq_refl) as (lv & P3 & _). destruct (PL (tf_right bent) eq_refl) as (rv & P4 & _).
  exists kv, hv, lv, rv. split; [exists s, k, h; auto|]. destruct (Req_EM_T d 0) as [e|e]; [now rewrite (E0 e)|]. destruct Hd as [Hd|Hd]; [contradiction|]. now rewrite (E3 Hd).
Qed.
(** no cyclic lap on this road satisfies the constraints, whatever the vehicle *)
Theorem C52_cyclic_refuted : forall roots read_csv P (M : smodel P) c first p cs l t pl bs x,
  let cfg := lc_sim c in lc_track c = Some first -> oracle_ok roots (cf_tns cfg) -> (1 <= cf_n cfg)%nat -> model_ok M (cf_con cfg) ->
  In "n" (m_states M) -> In "track_curvature" (m_inputs M) -> In "track_heading" (m_inputs M) -> cf_cyclic cfg = true -> ~ In "inputs.track_curvature" (cf_noncyclic cfg) -> cf_points cfg = None ->
  lap_history roots read_csv M c p cs = Ok l -> Forall lplain cs -> Forall (good_track read_csv) (LTrack first :: cs) -> reads read_csv (track_asked first cs) bent ->
  make_transcription roots (cf_tname cfg) (cf_tns cfg) = Ok t -> points_used (cf_n cfg) (cf_points cfg) pl -> lap_bounds read_csv t (cf_n cfg) pl (LTrack first :: cs) bs ->
  let o := a_o (l_a l) in let n := cf_n cfg in let nst := (n * (t_stages t - 1) + 1)%nat in
  untouched (cf_bcs cfg) cs nst "inputs" "track_curvature" 0 -> untouched (cf_bcs cfg) cs nst "inputs" "track_curvature" (nst - 1) ->
  ~ trajectory o (m_states M) (m_inputs M) (cf_con cfg) (m_residuals M) (m_forward M (params_asked p (other_calls cs))) t n pl (Some (road_length bent))
    (Some (cyclic_pairs (m_states M) (m_inputs M) (cf_noncyclic cfg))) (map of_bound (cf_bounds cfg) ++ bs) (bcs_asked (cf_bcs cfg) (other_calls cs)) x.
Proof.
  intros roots read_csv P M c first p cs l t pl bs x cfg EC HO Hn MO Hns Htc Hth Hcy Hnc Hpt HH HP HG HF HT HU HB o n nst U0 U1 TJ.
  destruct (bent_at 0 ltac:(auto)) as (k & h & lf & r & R0 & E0). destruct (bent_at 3 ltac:(auto)) as (k' & h' & lf' & r' & R1 & E1).
  rewrite Hpt in HU. destruct HU as [_ HU]. pose proof (HU 0%nat ltac:(lia)) as H0. pose proof (HU n ltac:(unfold n; lia)) as H1. assert (INR n <> 0) as Hz by (apply not_0_INR; unfold n; lia).
  assert (k = k') as E.
  { eapply (C52_cyclic roots read_csv P M c first p cs l bent t pl bs x EC HO Hn MO Hns Htc Hth Hcy Hnc HH HP HG HF HT HB TJ U0 U1).
    - rewrite H0, bent_length. replace (INR 0 / INR (cf_n cfg) * 3) with 0 by (cbn; unfold Rdiv; ring). exact R0.
    - fold cfg. fold n. rewrite H1, bent_length. replace (INR n / INR (cf_n cfg) * 3) with 3 by (fold n; field; exact Hz). exact R1. }
  destruct (Req_EM_T 0 0) as [_|X]; [|lra]. destruct (Req_EM_T 3 0) as [X|_]; [lra|]. lra.
Qed.
Print Assumptions C52_cyclic_refuted.

(** The lap of an open list of points ends at the last point: the way back to the first point is not driven (a cyclic lap jumps there). *)
Theorem C52_gap_refuted : exists f, drivable f /\ road_length f = 3 /\ pdist (last (tf_x f) 0) (last (tf_y f) 0) (nth 0 (tf_x f) 0) (nth 0 (tf_y f) 0) = 1.
Proof.
  exists {| tf_x := [0; 1; 1; 0]; tf_y := [0; 0; 1; 1]; tf_left := [1; 1; 1; 1]; tf_right := [1; 1; 1; 1] |}. split; [|split].
  - constructor; cbn [tf_x tf_y tf_left tf_right].
    + split; [cbn; lia|]. split; [reflexivity|]. intros [|[|[|i]]] Hi; [left; change (1 <> 0); lra|right; change (1 <> 0); lra|left; change (0 <> 1); lra|cbn in Hi; lia].
    + intros [|[|i]] Hi; [left; change (1 <> 0); lra|left; change (0 <> 1); lra|cbn in Hi; lia].
    + reflexivity.
    + reflexivity.
    + intros [|[|[|[|i]]]] Hi; [cbn; lra ..|cbn in Hi; lia].
  - unfold road_length. cbn [tf_x tf_y List.length seq map Nat.sub nth]. rewrite !one_dist by lra. cbn. lra.
  - cbn [tf_x tf_y last nth]. apply one_dist. lra.
Qed.
Print Assumptions C52_gap_refuted.
