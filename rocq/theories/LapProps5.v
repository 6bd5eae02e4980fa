(** C52, continued: problems that meet all hypotheses. *)
From Verif Require Import Base RBase TreeModel UtilsModel IoModel CollocModel CollocProps MeshModel MeshProps OcpModel OcpSpec NlpModel NlpSpec AlgModel AlgSpec ConvModel ConvSpec CyclicSpec BoundModel BoundSpec ScaleModel ScaleSpec
  BuildModel BuildSpec BuildProofs BuildProofs4 BuildProofs5 BuildProps BuildProps2 BuildProps3 BuildProps4 TrackModel TrackSpec LapModel LapSpec LapProofs LapProps LapProps2 LapProps3 LapProps4.

(** a car on the centre line of a straight road at 50 m/s, whatever the inputs *)
Definition ex_car : smodel unit := {|
  m_states := lap_states; m_inputs := lap_inputs; m_outputs := usual_outputs; m_residuals := [];
  m_forward := fun _ _ _ _ => Ok (map (fun q => (q, if String.eqb q "time" then 1 / 50 else 0)) lap_states, map (fun q => (q, 0)) usual_outputs);
  m_jac := fun _ _ _ _ => repeat (-1) 18; m_hess := fun _ _ _ _ _ => [];
  m_js := fun _ => (seq 0 18, seq 17 18); m_hs := fun _ => ([], []) |}.
Lemma ex_car_ok : model_ok ex_car usual_outputs.
Proof.
  constructor.
  - split; [reflexivity|]. split; [|split; intros q Hq; cbn in *; tauto]. intros g Hg. cbn in Hg. repeat (destruct Hg as [<-|Hg]; [cbn; repeat constructor; cbn; intuition discriminate|]). contradiction.
  - intros nm [H|H]; cbn in H; repeat (destruct H as [<-|H]; [reflexivity|]); contradiction.
  - intros p mesh ds di Hs Hi. eexists. eexists. split; [reflexivity|]. split; intros q Hq; cbn in *; tauto.
  - reflexivity.
  - reflexivity.
  - cbn. repeat split; repeat constructor; lia.
  - cbn. repeat split; repeat constructor; lia.
Qed.
(** a file system with two track files *)
Definition ring : track_file := {| tf_x := [0; 1; 1; 0]; tf_y := [0; 0; 1; 1]; tf_left := [1; 2; 2; 1]; tf_right := [1; 1; 1; 1] |}.
Definition table (f : track_file) : dict (list R) := [("# x_m", tf_x f); ("y_m", tf_y f); ("w_tr_right_m", tf_right f); ("w_tr_left_m", tf_left f)].
Definition disk (name : string) : result (dict (list R)) :=
  if String.eqb name "bent.csv" then Ok (table bent) else if String.eqb name "ring.csv" then Ok (table ring) else Raise FileNotFoundError.
Lemma disk_bent : reads disk "bent.csv" bent. Proof. exists (table bent). repeat split. Qed.
Lemma disk_ring : reads disk "ring.csv" ring. Proof. exists (table ring). repeat split. Qed.
Lemma ring_drivable : drivable ring.
Proof.
  constructor; cbn [ring tf_x tf_y tf_left tf_right].
  - split; [cbn; lia|]. split; [reflexivity|]. intros [|[|[|i]]] Hi; [left; change (1 <> 0); lra|right; change (1 <> 0); lra|left; change (0 <> 1); lra|cbn in Hi; lia].
  - intros [|[|i]] Hi; [left; change (1 <> 0); lra|left; change (0 <> 1); lra|cbn in Hi; lia].
  - reflexivity.
  - reflexivity.
  - intros [|[|[|[|i]]]] Hi; [cbn; lra ..|cbn in Hi; lia].
Qed.
(** the default configuration and this car meet the hypotheses of C52_default *)
Example C52_default_nonvacuous : oracle_ok (fun _ => [-1; 1/3]) None /\ m_states ex_car = lap_states /\ m_inputs ex_car = lap_inputs /\ model_ok ex_car usual_outputs /\ reads disk "bent.csv" bent /\ drivable bent.
Proof. split; [exact (proj1 C22_nonvacuous)|]. split; [reflexivity|]. split; [reflexivity|]. split; [exact ex_car_ok|]. split; [exact disk_bent|exact bent_drivable]. Qed.

(** a point that moves with unit speed along a curved road: time' = 1 - n k, n' = p steer *)
Definition ex_point : smodel R := {|
  m_states := ["time"; "n"]; m_inputs := ["steer"; "track_curvature"; "track_heading"]; m_outputs := []; m_residuals := [];
  m_forward := fun p ds di _ => Ok ([("time", 1 - get0 "n" ds * get0 "track_curvature" di); ("n", p * get0 "steer" di)], []);
  m_jac := fun _ w _ p => [- vget 3 w; - vget 1 w; -1; p; -1]; m_hess := fun _ _ l _ _ => [- vget 0 l];
  m_js := fun _ => ([0; 0; 0; 1; 1]%nat, [1; 3; 5; 2; 6]%nat); m_hs := fun _ => ([1%nat], [3%nat]) |}.
Lemma seven : forall (w : list R), List.length w = 7%nat -> exists a b c d e f g, w = [a; b; c; d; e; f; g].
Proof. intros [|a [|b [|c [|d [|e [|f [|g [|? ?]]]]]]]]; try discriminate. intros _. now exists a, b, c, d, e, f, g. Qed.
Lemma ex_point_residual : forall p mesh w, List.length w = 7%nat ->
  residual (names_of ex_point []) (m_forward ex_point p) mesh w = [1 - vget 1 w * vget 3 w - vget 5 w; p * vget 2 w - vget 6 w].
Proof. intros p mesh w L. destruct (seven w L) as (a & b & c & d & e & f & g & ->). reflexivity. Qed.
Lemma ex_point_derivatives : model_derivatives ex_point [].
Proof.
  intros p mesh nin res. change nin with 7%nat. change (num_implicit_res (names_of ex_point [])) with 2%nat. split.
  - intros w i j Lw Hi Hj.
    apply pderiv_ext_len with (f := fun w => vget i [1 - vget 1 w * vget 3 w - vget 5 w; p * vget 2 w - vget 6 w]).
    { intros y Ly. unfold res. rewrite ex_point_residual by congruence. reflexivity. }
    cbn [ex_point m_js m_jac fst snd].
    do 2 (destruct i as [|i]; [unfold vget at 1; cbn [nth]; eapply pderiv_eq; [|pd]; (do 7 (destruct j as [|j]; [cbn; lra|])); lia|]). lia.
  - intros l Ll. exists (fun w j => nth j [0; - vget 0 l * vget 3 w; vget 1 l * p; - vget 0 l * vget 1 w; 0; - vget 0 l; - vget 1 l] 0). split.
    + intros w j Lw Hj. apply pderiv_ext_len with (f := fun w => vget 0 l * (1 - vget 1 w * vget 3 w - vget 5 w) + vget 1 l * (p * vget 2 w - vget 6 w)).
      { intros y Ly. unfold res. rewrite ex_point_residual by congruence. destruct l as [|l0 [|l1 [|]]]; try discriminate. cbn. unfold vget; cbn. lra. }
      eapply pderiv_eq; [|pd]. do 7 (destruct j as [|j]; [cbn; lra|]). lia.
    + intros w i j Lw Hi Hj Hij. cbn [ex_point m_hs m_hess fst snd].
      do 7 (destruct i as [|i]; [cbn [nth]; (eapply pderiv_eq; [|pd]); (do 7 (destruct j as [|j]; [try lia; cbn; lra|])); lia|]). lia.
Qed.
Lemma ex_point_ok : model_ok ex_point [].
Proof.
  constructor.
  - split; [reflexivity|]. split; [|split; intros q Hq; cbn in *; tauto]. intros g Hg. cbn in Hg. repeat (destruct Hg as [<-|Hg]; [cbn; repeat constructor; cbn; intuition discriminate|]). contradiction.
  - intros nm [H|H]; cbn in H; repeat (destruct H as [<-|H]; [reflexivity|]); contradiction.
  - intros p mesh ds di Hs Hi. eexists. eexists. split; [reflexivity|]. split; intros q Hq; cbn in *; tauto.
  - reflexivity.
  - reflexivity.
  - cbn. repeat split; repeat constructor; lia.
  - cbn. repeat split; repeat constructor; lia.
Qed.
(** a cyclic lap of three intervals, a bound on the steering, a start and a scale; then another track and other settings *)
Definition ex_made : result ltc_config := make_ltc (Some "bent.csv") (Some 3%nat) None None (Some true) None (Some [])
  (Some [sbound "inputs" "steer" (Fin (-1)) (Fin 1)]) None (Some [{| sc_g := "states"; sc_n := "time"; sc_v := 10 |}]).
Definition ex_lap_calls : list (lcall R) := [LOcp (SBounds [sbound "inputs" "steer" (Fin (-2)) (Fin 2)]); LTrack "ring.csv"; LOcp (SParams 7); LOcp (SBCs [{| cstage := (-1)%Z; cg := "states"; cn := "n"; cv := BSc (Fin 0) PosInf |}]);
  LOcp (SScales [{| sc_g := "states"; sc_n := "n"; sc_v := 2 |}])].
Example C52_nonvacuous : exists c l, ex_made = Ok c /\ let cfg := lc_sim c in let roots := fun _ : list R => [-1; 1/3] in
  lc_track c = Some "bent.csv" /\ oracle_ok roots (cf_tns cfg) /\ make_transcription roots (cf_tname cfg) (cf_tns cfg) = Ok trapezoidal /\ config_ok ex_point cfg (Some 1) trapezoidal /\ model_derivatives ex_point (cf_con cfg) /\
  cf_cyclic cfg = true /\ ~ In "inputs.track_curvature" (cf_noncyclic cfg) /\
  lap_history roots disk ex_point c 5 ex_lap_calls = Ok l /\ Forall lplain ex_lap_calls /\ Forall (good_track disk) (LTrack "bent.csv" :: ex_lap_calls) /\ reads disk (track_asked "bent.csv" ex_lap_calls) ring /\
  Forall (fun c => 0 < sc_v c) (scales_asked (cf_scales cfg) (other_calls ex_lap_calls)) /\ params_asked 5 (other_calls ex_lap_calls) = 7 /\
  incl (m_states ex_point) lap_states /\ incl (m_inputs ex_point) lap_inputs /\
  (forall s, (s < 4)%nat -> untouched (cf_bcs cfg) ex_lap_calls 4 "inputs" "track_curvature" s) /\ (forall s, (s < 3)%nat -> untouched (cf_bcs cfg) ex_lap_calls 4 "states" "n" s).
Proof.
  destruct ex_made as [c|] eqn:EM; [|discriminate]. exists c. pose proof (proj1 C22_nonvacuous) as HO.
  injection EM as EM.
  assert (config_ok ex_point (lc_sim c) (Some 1) trapezoidal) as CO.
  { rewrite <- EM. constructor; cbn [lc_sim with_noncyclic cf_n cf_points cf_tname cf_tns cf_cyclic cf_noncyclic cf_con cf_bounds cf_bcs cf_scales cf_pen or_default ex_point m_states m_inputs].
    - lia.
    - discriminate.
    - apply ex_point_ok.
    - discriminate.
    - intros s X. injection X as <-. split; [lra|]. cbn. tauto.
    - discriminate.
    - intros _. split; [repeat constructor; cbn; intuition discriminate|]. split; [vm_compute; discriminate|].
      intros e [<-|[<-|[]]]; [exists "states", "time"|exists "inputs", "track_heading"]; (split; [reflexivity|]); [left|right]; cbn; tauto.
    - intros b [<-|[]]. split; [right; left; cbn; tauto|]. split; [exact (fun _ => I)|cbn; lra].
    - intros b [<-|[]]. split; [left; cbn; tauto|]. split; [cbn; lia|cbn; lra].
    - intros b [<-|[]]. left; cbn; tauto. }
  destruct (C52_accepts (fun _ => [-1; 1/3]) disk R ex_point c "bent.csv" 5 ex_lap_calls trapezoidal) as (l & El).
  - rewrite <- EM. reflexivity.
  - rewrite <- EM. exact HO.
  - rewrite <- EM. reflexivity.
  - exact CO.
  - cbn; tauto.
  - cbn; tauto.
  - cbn; tauto.
  - cbn; tauto.
  - rewrite <- EM. unfold ex_lap_calls. repeat apply Forall_cons; [| | | | | |apply Forall_nil]; cbn [lcall_ok call_ok lc_sim with_noncyclic cf_n cf_con or_default ex_point m_states m_inputs].
    + exists bent. split; [exact disk_bent|exact bent_drivable].
    + intros b [<-|[]]. split; [right; left; cbn; tauto|]. split; [exact (fun _ => I)|cbn; lra].
    + exists ring. split; [exact disk_ring|exact ring_drivable].
    + exact I.
    + intros b [<-|[]]. split; [left; cbn; tauto|]. split; [cbn; lia|exact I].
    + intros b [<-|[]]. left; cbn; tauto.
  - exists l. split; [reflexivity|]. cbv zeta. split; [now rewrite <- EM|]. split; [rewrite <- EM; exact HO|]. split; [now rewrite <- EM|]. split; [exact CO|]. split; [rewrite <- EM; exact ex_point_derivatives|].
    split; [now rewrite <- EM|]. split; [rewrite <- EM; cbn; intuition discriminate|]. split; [exact El|]. split; [unfold ex_lap_calls; repeat constructor|].
    split. { unfold ex_lap_calls. repeat apply Forall_cons; [| | | | | |apply Forall_nil]; cbn [good_track]; try exact I; [exists bent|exists ring]; (split; [first [exact disk_bent|exact disk_ring]|first [exact bent_drivable|exact ring_drivable]]). }
    split; [exact disk_ring|]. split; [rewrite <- EM; repeat constructor; cbn; lra|]. split; [reflexivity|]. split; [intros q Hq; cbn in *; tauto|]. split; [intros q Hq; cbn in *; tauto|].
    split; intros s Hs.
    + split; [|rewrite <- EM; cbn; intros b Hb; repeat (destruct Hb as [<-|Hb]; [cbn; intros (X & _); discriminate|]); contradiction].
      unfold ex_lap_calls. cbn [unbounded_after]. split; [left; exists "ring.csv"; cbn; tauto|]. tauto.
    + split; [|rewrite <- EM; cbn; intros b Hb].
      * unfold ex_lap_calls. cbn [unbounded_after]. split; [left; exists "ring.csv"; cbn; tauto|]. tauto.
      * destruct Hb as [<-|[<-|[]]]; cbn [cg cn cstage]; [intros (_ & X & _); discriminate|intros (_ & _ & X); lia].
Qed.
