(** C51, continued: a problem that meets all hypotheses, and findings. *)
From Verif Require Import Base RBase TreeModel UtilsModel IoModel CollocModel CollocProps MeshModel OcpModel OcpSpec NlpModel NlpSpec AlgModel AlgSpec ConvModel ConvSpec CyclicSpec BoundModel BoundSpec ScaleModel ScaleSpec BuildModel BuildSpec BuildProofs BuildProofs4 BuildProofs5 BuildProps BuildProps2 BuildProps3.

(** time' = 1, x' = p u, output a = u^2 + position-free, residual x u - p *)
Definition get0 (k : string) (d : dict R) : R := match dget k d with Some v => v | None => 0 end.
Definition ex_model : smodel R := {|
  m_states := ["time"; "x"]; m_inputs := ["u"]; m_outputs := ["a"; "r"]; m_residuals := ["r"];
  m_forward := fun p ds di _ => Ok ([("time", 1); ("x", p * get0 "u" di)], [("a", get0 "u" di * get0 "u" di); ("r", get0 "x" ds * get0 "u" di - p)]);
  m_jac := fun _ w _ p => [-1; p; -1; 2 * vget 2 w; -1; vget 2 w; vget 1 w];
  m_hess := fun _ _ l _ _ => [2 * vget 2 l; vget 3 l];
  m_js := fun _ => ([0; 1; 1; 2; 2; 3; 3]%nat, [3; 2; 4; 2; 5; 1; 2]%nat);
  m_hs := fun _ => ([2; 1]%nat, [2; 2]%nat) |}.
Definition ex_cfg : sim_config := {|
  cf_n := 2; cf_points := None; cf_tname := "Trapezoidal"; cf_tns := None; cf_cyclic := true; cf_noncyclic := ["states.time"]; cf_con := ["a"]; cf_pen := Some [("u", 3)];
  cf_bounds := [{| bg := "states"; bn := "x"; bv := BSc (Fin 0) (Fin 10) |}]; cf_bcs := [{| cstage := 0%Z; cg := "states"; cn := "time"; cv := BSc (Fin 0) (Fin 0) |}];
  cf_scales := [{| sc_g := "states"; sc_n := "x"; sc_v := 2 |}] |}.
Definition ex_calls : list (scall R) :=
  [SBounds [{| bg := "inputs"; bn := "u"; bv := BSc (Fin (-1)) (Fin 1) |}]; SParams 3; SScales [{| sc_g := "inputs"; sc_n := "u"; sc_v := 5 |}; {| sc_g := "global"; sc_n := "mesh_scale"; sc_v := 7 |}];
   SBCs [{| cstage := (-1)%Z; cg := "states"; cn := "x"; cv := BSc (Fin 1) (Fin 2) |}]].

Lemma six : forall (w : list R), List.length w = 6%nat -> exists a b c d e f, w = [a; b; c; d; e; f].
Proof. intros [|a [|b [|c [|d [|e [|f [|? ?]]]]]]]; try discriminate. intros _. now exists a, b, c, d, e, f. Qed.
Lemma ex_residual : forall p mesh w, List.length w = 6%nat ->
  residual (names_of ex_model ["a"]) (m_forward ex_model p) mesh w = [1 - vget 3 w; p * vget 2 w - vget 4 w; vget 2 w * vget 2 w - vget 5 w; vget 1 w * vget 2 w - p].
Proof. intros p mesh w L. destruct (six w L) as (a & b & c & d & e & f & ->). reflexivity. Qed.
Lemma ex_forward_ok : forall p mesh, forward_ok (names_of ex_model ["a"]) (m_forward ex_model p) mesh.
Proof. intros p mesh ds di Hs Hi. eexists. eexists. split; [reflexivity|]. split; intros q Hq; cbn in *; tauto. Qed.
Ltac pd := repeat first [apply pderiv_const | apply OcpProofs2.pderiv_sub | apply pderiv_plus | apply pderiv_mult | apply pderiv_scal | apply pderiv_coord; lia].
Lemma ex_derivatives : model_derivatives ex_model ["a"].
Proof.
  intros p mesh nin res. change nin with 6%nat. change (num_implicit_res (names_of ex_model ["a"])) with 4%nat. split.
  - intros w i j Lw Hi Hj. change (vget i (res w)) with (vget i (res w)).
    apply pderiv_ext_len with (f := fun w => vget i [1 - vget 3 w; p * vget 2 w - vget 4 w; vget 2 w * vget 2 w - vget 5 w; vget 1 w * vget 2 w - p]).
    { intros y Ly. unfold res. rewrite ex_residual by congruence. reflexivity. }
    cbn [ex_model m_js m_jac fst snd].
    do 4 (destruct i as [|i]; [unfold vget at 1; cbn [nth]; eapply pderiv_eq; [|pd]; (do 6 (destruct j as [|j]; [cbn; lra|])); lia|]). lia.
  - intros l Ll. exists (fun w j => nth j [0; vget 3 l * vget 2 w; vget 1 l * p + vget 2 l * (2 * vget 2 w) + vget 3 l * vget 1 w; - vget 0 l; - vget 1 l; - vget 2 l] 0). split.
    + intros w j Lw Hj. apply pderiv_ext_len with (f := fun w => vget 0 l * (1 - vget 3 w) + (vget 1 l * (p * vget 2 w - vget 4 w) + (vget 2 l * (vget 2 w * vget 2 w - vget 5 w) + vget 3 l * (vget 1 w * vget 2 w - p)))).
      { intros y Ly. unfold res. rewrite ex_residual by congruence. destruct l as [|l0 [|l1 [|l2 [|l3 [|]]]]]; try discriminate. cbn. unfold vget; cbn. lra. }
      eapply pderiv_eq; [|pd]. do 6 (destruct j as [|j]; [cbn; lra|]). lia.
    + intros w i j Lw Hi Hj Hij. cbn [ex_model m_hs m_hess fst snd].
      do 6 (destruct i as [|i]; [cbn [nth]; (eapply pderiv_eq; [|pd]); (do 6 (destruct j as [|j]; [try lia; cbn; lra|])); lia|]). lia.
Qed.
Lemma ex_model_ok : model_ok ex_model ["a"].
Proof.
  constructor.
  - split; [reflexivity|]. split; [|split; intros q Hq; cbn in *; tauto]. intros g Hg. cbn in Hg. repeat (destruct Hg as [<-|Hg]; [cbn; repeat constructor; cbn; intuition discriminate|]). contradiction.
  - intros nm [H|H]; cbn in H; repeat (destruct H as [<-|H]; [reflexivity|]); contradiction.
  - apply ex_forward_ok.
  - reflexivity.
  - reflexivity.
  - cbn. repeat split; repeat constructor; lia.
  - cbn. repeat split; repeat constructor; lia.
Qed.

(** all hypotheses of the theorems are met by a problem with bounds, a boundary condition, a penalty on the input, cyclic variables and scales, after four calls *)
Example C51_nonvacuous : exists t a, oracle_ok (fun _ => [-1; 1/3]) (cf_tns ex_cfg) /\ make_transcription (fun _ => [-1; 1/3]) (cf_tname ex_cfg) (cf_tns ex_cfg) = Ok t /\ config_ok ex_model ex_cfg None t /\
  Forall (call_ok (cf_n ex_cfg * (t_stages t - 1) + 1) (m_states ex_model) (m_inputs ex_model) (cf_con ex_cfg) None) ex_calls /\ Forall plain ex_calls /\
  history (fun _ => [-1; 1/3]) ex_model ex_cfg None 2 ex_calls = Ok a /\ Forall (fun c => 0 < sc_v c) (scales_asked (cf_scales ex_cfg) ex_calls) /\ params_asked 2 ex_calls = 3 /\ num_dec (oc_op (a_o a)) = 19%nat /\
  model_ok ex_model (cf_con ex_cfg) /\ model_derivatives ex_model (cf_con ex_cfg) /\ position_free ex_model.
Proof.
  exists trapezoidal. pose proof (proj1 C22_nonvacuous) as HO.
  assert (config_ok ex_model ex_cfg None trapezoidal) as CO.
  { constructor; cbn [ex_cfg ex_model cf_n cf_points cf_tname cf_tns cf_cyclic cf_noncyclic cf_con cf_pen cf_bounds cf_bcs cf_scales m_states m_inputs].
    - lia.
    - discriminate.
    - apply ex_model_ok.
    - discriminate.
    - discriminate.
    - intros w X. injection X as <-. split; [repeat constructor; cbn; tauto|]. intros q Hq. exact Hq.
    - intros _. split; [repeat constructor; cbn; tauto|]. split; [discriminate|]. intros e [<-|[]]. exists "states", "time". split; [reflexivity|]. left. cbn. tauto.
    - intros b [<-|[]]. split; [left; cbn; tauto|]. split; [exact (fun _ => I)|cbn; lra].
    - intros b [<-|[]]. split; [left; cbn; tauto|]. split; [cbn; lia|cbn; lra].
    - intros b [<-|[]]. left; cbn; tauto. }
  assert (Forall (call_ok (cf_n ex_cfg * (t_stages trapezoidal - 1) + 1) (m_states ex_model) (m_inputs ex_model) (cf_con ex_cfg) None) ex_calls) as CA.
  { unfold ex_calls. repeat apply Forall_cons; [| | | |apply Forall_nil]; cbn [call_ok]; [|exact I| |].
    - intros b [<-|[]]. split; [right; left; cbn; tauto|]. split; [exact (fun _ => I)|cbn; lra].
    - intros b [<-|[<-|[]]]; [right; left; cbn; tauto|right; right; right; cbn; tauto].
    - intros b [<-|[]]. split; [left; cbn; tauto|]. split; [cbn; lia|cbn; lra]. }
  destruct (C51_accepts _ R ex_model ex_cfg None 2 ex_calls trapezoidal HO eq_refl CO CA) as (a & E). exists a.
  assert (Forall (@plain R) ex_calls) as PL by (unfold ex_calls; repeat constructor).
  split; [exact HO|]. split; [reflexivity|]. split; [exact CO|]. split; [exact CA|]. split; [exact PL|]. split; [exact E|]. split; [repeat constructor; cbn; lra|]. split; [reflexivity|]. split; [|split; [apply ex_model_ok|]; split; [apply ex_derivatives|intros p ds di m m'; reflexivity]].
  destruct (history_inv _ _ _ _ _ _ _ _ E PL) as (o0 & fm & cyc & a0 & EO & _ & _ & _ & _ & _ & [I1 _ _ _ _ _ _]). rewrite I1. unfold o_at. vm_compute in EO. injection EO as <-. reflexivity.
Qed.

(** ** Findings *)
(** x' = position on the mesh *)
Definition ex_pos : smodel unit := {|
  m_states := ["x"]; m_inputs := []; m_outputs := []; m_residuals := [];
  m_forward := fun _ _ _ m => Ok ([("x", m)], []);
  m_jac := fun _ _ _ _ => [-1]; m_hess := fun _ _ _ _ _ => []; m_js := fun _ => ([0%nat], [1%nat]); m_hs := fun _ => ([], []) |}.
Definition ex_poscfg : sim_config := {| cf_n := 2; cf_points := None; cf_tname := "Trapezoidal"; cf_tns := None; cf_cyclic := false; cf_noncyclic := []; cf_con := []; cf_pen := None; cf_bounds := []; cf_bcs := []; cf_scales := [] |}.
Lemma ex_pos_ok : model_ok ex_pos [].
Proof.
  constructor.
  - split; [reflexivity|]. split; [|split; intros q Hq; cbn in *; tauto]. intros g Hg. cbn in Hg. repeat (destruct Hg as [<-|Hg]; [cbn; repeat constructor; cbn; intuition discriminate|]). contradiction.
  - intros nm [H|H]; cbn in H; repeat (destruct H as [<-|H]; [reflexivity|]); contradiction.
  - intros p mesh ds di Hs Hi. eexists. eexists. split; [reflexivity|]. split; intros q Hq; cbn in *; tauto.
  - reflexivity.
  - reflexivity.
  - cbn. repeat split; repeat constructor; lia.
  - cbn. repeat split; repeat constructor; lia.
Qed.
(** set_normalized_mesh after the construction is accepted, but the model algebra keeps the positions of the old mesh: a trajectory on the new mesh
    violates the constraints (the continuity constraints follow the new mesh). So the history in C51_solve must not replace the mesh. *)
Theorem C51_remesh_refuted : exists a x, history (fun _ => [-1; 1/3]) ex_pos ex_poscfg None tt [SMesh (Some [0; 1/4; 1])] = Ok a /\
  trajectory (a_o a) ["x"] [] [] [] (m_forward ex_pos tt) trapezoidal 2 [0; 1/4; 1] None None [] [] x /\
  exists c, algebra_con ex_pos a = Ok c /\ ~ Forall (fun v => v = 0) (c_f c x).
Proof.
  pose proof (proj1 C22_nonvacuous) as HO.
  assert (config_ok ex_pos ex_poscfg None trapezoidal) as CO.
  { constructor; cbn [ex_poscfg ex_pos cf_n cf_points cf_tname cf_tns cf_cyclic cf_noncyclic cf_con cf_pen cf_bounds cf_bcs cf_scales m_states m_inputs]; try discriminate; try (intros b []).
    - lia.
    - apply ex_pos_ok. }
  destruct (C51_accepts _ unit ex_pos ex_poscfg None tt [] trapezoidal HO eq_refl CO (Forall_nil _)) as (a0 & E0).
  destruct (BuildProofs6.the_facts (fun _ => [-1; 1/3]) unit ex_pos ex_poscfg None tt [] a0 HO (ltac:(cbn; lia)) (ltac:(discriminate)) ex_pos_ok E0 (Forall_nil _)) as (o & fm & pl & ops & h & F).
  pose proof (BuildProofs6.fa_built _ _ _ _ _ _ _ _ _ _ _ _ _ F) as B.
  destruct (history_inv _ _ _ _ _ _ _ _ E0 (Forall_nil _)) as (o0 & fm' & cyc & a00 & EO & _ & _ & _ & _ & _ & [I1 _ _ _ _ _ _]). unfold o_at in I1.
  assert (oc_op (a_o a0) = oc_op o0) as EOp by now rewrite I1.
  assert (num_intervals (a_o a0) = 2%nat /\ oc_tr (a_o a0) = trapezoidal) as [EN ET]. { rewrite I1. vm_compute in EO. injection EO as <-. split; reflexivity. }
  assert (exists m, set_normalized_mesh 2 trapezoidal (oc_mesh (a_o a0)) (Some [0; 1/4; 1]) = (m, Ok tt)) as [m EM].
  { pose proof (proj1 (MeshProps.C23_accepts 2 trapezoidal (oc_mesh (a_o a0)) [0; 1/4; 1])) as X. destruct (set_normalized_mesh _ _ _ _) as [m r]. exists m. f_equal. apply X. split; [reflexivity|]. cbn [nth]. split; [rewrite Rabs_pos_eq; lra|]. split; [replace (1 - 1) with 0 by lra; rewrite Rabs_pos_eq; lra|].
    intros i j Hij Hj. destruct i as [|[|i]]; destruct j as [|[|[|j]]]; try lia; cbn [nth]; lra. }
  exists (with_o a0 (with_mesh (a_o a0) m)), [0; 0; 1/32; 1/4; 1/2; 1; 1]. split.
  { unfold history in *. destruct (construct _ _ _ _ _) as [a1|] eqn:EC; [|discriminate]. cbn [bind calls] in *. injection E0 as ->. unfold check. cbn [scall_step fst snd]. rewrite EN, ET, EM. reflexivity. }
  vm_compute in EO. injection EO as <-. cbn [oc_op] in EOp.
  assert (forall s, (s < 3)%nat -> val (with_mesh (a_o a0) m) [0; 0; 1/32; 1/4; 1/2; 1; 1] "states" "x" s (nth s [0; 1/32; 1/2] 0)) as V1.
  { intros s Hs. unfold val, value_at. cbn [with_mesh oc_op]. rewrite EOp. destruct s as [|[|[|s]]]; try lia; reflexivity. }
  assert (forall s, (s < 3)%nat -> val (with_mesh (a_o a0) m) [0; 0; 1/32; 1/4; 1/2; 1; 1] "states_dot" "x" s (nth s [0; 1/4; 1] 0)) as V2.
  { intros s Hs. unfold val, value_at. cbn [with_mesh oc_op]. rewrite EOp. destruct s as [|[|[|s]]]; try lia; reflexivity. }
  assert (forall s, val (with_mesh (a_o a0) m) [0; 0; 1/32; 1/4; 1/2; 1; 1] "global" "mesh_scale" s 1) as V3.
  { intros s. unfold val, value_at. cbn [with_mesh oc_op]. rewrite EOp. destruct s; reflexivity. }
  cbn [with_o a_o]. split.
  - constructor.
    + cbn [with_mesh oc_op]. rewrite EOp. reflexivity.
    + intros i j Hi Hj s. change (t_stages trapezoidal) with 2%nat in Hj. exists 1, [("x", nth s [0; 1/32; 1/2] 0)], []. eexists. eexists. split; [exact (V3 0%nat)|]. unfold s, stage_of. change (t_stages trapezoidal - 1)%nat with 1%nat. rewrite Nat.mul_1_r. split; [|split].
      * split; [reflexivity|]. intros nm v E. cbn in E. destruct (String.eqb_spec nm "x") as [->|]; [|discriminate]. injection E as <-. apply V1. lia.
      * split; [reflexivity|]. discriminate.
      * split; [reflexivity|]. split; [|split; intros nm []]. intros nm [<-|[]]. eexists. split; [reflexivity|]. unfold interval_length. replace ((nth i [0; 1 / 4; 1] 0 + unit_point trapezoidal j * (nth (S i) [0; 1 / 4; 1] 0 - nth i [0; 1 / 4; 1] 0)) * 1) with (nth (i + j) [0; 1/4; 1] 0); [apply V2; lia|].
        destruct i as [|[|i]], j as [|[|j]]; try lia; cbn; lra.
    + intros i k nm Hi Hk [<-|[]]. change (t_stages trapezoidal - 1)%nat with 1%nat in *. exists 1, (fun j => nth (i + j) [0; 1/32; 1/2] 0), (fun j => nth (i + j) [0; 1/4; 1] 0). split; [exact (V3 0%nat)|]. split.
      * intros j Hj. change (t_stages trapezoidal) with 2%nat in Hj. unfold stage_of. change (t_stages trapezoidal - 1)%nat with 1%nat. rewrite Nat.mul_1_r. split; [apply V1; lia|apply V2; lia].
      * assert (k = 0)%nat as -> by lia. unfold interval_length. destruct i as [|[|i]]; try lia; cbn; lra.
    + discriminate.
    + intros g nm s Hk Hs. change (t_stages trapezoidal - 1)%nat with 1%nat in Hs. destruct Hk as [([->| ->] & [<-|[]])|[(_ & [])|[(_ & [])|(-> & _ & ->)]]].
      * eexists. split; [apply V1; lia|]. cbn. auto.
      * eexists. split; [apply V2; lia|]. cbn. auto.
      * eexists. split; [apply V3|]. cbn. auto.
  - destruct (BuildProofs4.algebra_piece _ _ _ _ _ _ _ fm ex_pos _ B ex_pos_ok (BuildProofs6.fa_lfm _ _ _ _ _ _ _ _ _ _ _ _ _ F) (fun x => or_zero (get_mesh_scale o x)) tt) as (c & A1 & _ & _ & _ & _ & A5). exists c.
    pose proof (BuildProofs6.fa_o _ _ _ _ _ _ _ _ _ _ _ _ _ F) as Fo. split.
    + unfold algebra_con. cbn [with_o a_con a_amesh a_p a_o with_mesh oc_op]. rewrite Fo, (BuildProofs6.fa_con _ _ _ _ _ _ _ _ _ _ _ _ _ F), (BuildProofs6.fa_mesh _ _ _ _ _ _ _ _ _ _ _ _ _ F). destruct (a_p a0). exact A1.
    + intro Z. rewrite Fo in *. rewrite (algebra_sem _ _ _ _ _ _ _ _ _ ex_pos _ B ex_pos_ok (BuildProofs6.fa_lfm _ _ _ _ _ _ _ _ _ _ _ _ _ F) (BuildProofs6.fa_ns _ _ _ _ _ _ _ _ _ _ _ _ _ F) (BuildProofs6.fa_hm _ _ _ _ _ _ _ _ _ _ _ _ _ F) tt [0; 0; 1/32; 1/4; 1/2; 1; 1] c) in Z; [|rewrite EOp; reflexivity|exact A5].
      rewrite ET in Z. destruct (Z 0%nat 1%nat) as (L & ds & di & sd & out & ZL & _ & _ & ZF & ZD & _); [cbn; lia|cbn; lia|]. cbn in ZF. injection ZF as <- <-. destruct (ZD "x" (or_introl eq_refl)) as (v & Ev & Hv). cbn in Ev. injection Ev as <-.
      pose proof (BuildProofs6.fa_pts _ _ _ _ _ _ _ _ _ _ _ _ _ F) as PU. 
      assert (L = 1) as ->. { specialize (V3 0%nat). unfold val, value_at in V3. cbn [with_mesh oc_op] in V3. unfold mesh_length, BuildProofs6.fixed_now, val, value_at in ZL. congruence. }
      specialize (V2 1%nat ltac:(lia)). unfold val, value_at in V2, Hv. cbn [with_mesh oc_op] in V2. change (stage_of trapezoidal 0 1) with 1%nat in Hv. rewrite V2 in Hv. injection Hv as Hv. 
      cbn in PU. destruct PU as (_ & PU). unfold interval_length in Hv. rewrite (PU 0%nat), (PU 1%nat) in Hv by lia. cbn in Hv. lra.
Qed.
Print Assumptions C51_remesh_refuted.

(** FixedMeshOCP asserts a positive mesh scale in the constructor, but set_mesh_scale accepts anything *)
Theorem C51_mesh_scale_unchecked_refuted : (forall roots P (M : smodel P) cfg p s, s <= 0 -> construct roots M cfg (Some s) p = Raise AssertionError) /\
  forall P (a : attrs P) c s, oc_fixed (a_o a) = Some c -> exists a', check (scall_step a (SMeshScale s)) = Ok a' /\ oc_fixed (a_o a') = Some s.
Proof.
  split.
  - intros roots P M cfg p s Hs. unfold construct, make_ocp. assert (negb (rltb 0 s) = true) as ->; [|reflexivity]. unfold rltb. destruct (Rlt_dec 0 s); [lra|reflexivity].
  - intros P a c s H. cbn [scall_step]. rewrite H. eexists. split; reflexivity.
Qed.
Print Assumptions C51_mesh_scale_unchecked_refuted.
