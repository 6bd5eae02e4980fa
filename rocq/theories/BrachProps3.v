(** C59, continued: the time-domain problem, from its configuration to the solution; the energy of its solutions. *)
From Verif Require Import Base RBase TreeModel UtilsModel UtilsProofs IoModel CollocModel CollocProofs CollocProps MeshModel MeshProps OcpModel OcpSpec OcpProofs OcpProps NlpModel NlpSpec AlgModel AlgSpec ConvModel ConvSpec CyclicSpec BoundModel BoundSpec ScaleModel ScaleSpec
  BuildModel BuildSpec BuildProofs BuildProofs4 BuildProofs5 BuildProofs6 BuildProps BuildProps2 BuildProps3 GuessProofs LapModel CBuildSpec BrachModel BrachSpec BrachSpec2 BrachProofs BrachProofs2 BrachProps BrachProps2.
From Coq Require Import Lra.

(** ** The model with the hand-written derivatives (backend "custom") *)
Theorem C59_custom_exact : model_ok custom_model [] /\ exact_derivatives custom_model [] /\ model_derivatives custom_model [] /\ position_free custom_model.
Proof.
  assert (exact_derivatives custom_model []) as X.
  { intros g mesh nin res. split.
    - destruct C59_custom_jacobian as (rows & cols & E1 & _ & H). destruct (H g mesh) as (vals & V & J). intros w i j Hw Hi Hj. change nin with 7%nat in *.
      specialize (J w i j Hw Hi Hj). destruct (V w Hw) as [V1 _]. change (m_js custom_model []) with (or_nil2 (custom_js (brach_names []))). rewrite E1. cbn [or_nil2 fst snd].
      change (m_jac custom_model [] w mesh g) with (or_nil (custom_jac (brach_names []) g w)). rewrite V1. exact J.
    - intros l Hl. destruct C59_custom_hessian as (rows & cols & E1 & _ & H). destruct (H g mesh l Hl) as (vals & V & h & G & J). exists h. split; [exact G|]. intros w i j Hw Hi Hj. change nin with 7%nat in *.
      specialize (J w i j Hw Hi Hj). destruct (V w Hw) as [V1 _]. change (m_hs custom_model []) with (or_nil2 (custom_hs (brach_names []))). rewrite E1. cbn [or_nil2 fst snd].
      change (m_hess custom_model [] w l mesh g) with (or_nil (custom_hess (brach_names []) g w l)). rewrite V1. exact J. }
  split; [|split; [exact X|split; [|intros p ds di m m'; reflexivity]]].
  - apply time_model_ok. split; [|split; [|split]].
    + intros w m p H. destruct (seven w H) as (v & x & y & th & a & b & c & ->). reflexivity.
    + intros w l m p H Hl. destruct (seven w H) as (v & x & y & th & a & b & c & ->). destruct (three l Hl) as (m0 & m1 & m2 & ->). reflexivity.
    + repeat split; cbn; repeat constructor.
    + repeat split; cbn; repeat constructor.
  - intros g mesh nin res. destruct (X g mesh) as [X1 X2]. split; [exact X1|]. intros l Hl. destruct (X2 l Hl) as (h & G & J). exists h. split; [exact G|]. intros w i j Hw Hi Hj _. now apply J.
Qed.
Print Assumptions C59_custom_exact.
(** ... but not when the output of the model is constrained: the row of the output is missing *)
Theorem C59_custom_con_refuted : exists rows cols, custom_js (brach_names ["theta"]) = Ok (rows, cols) /\
  forall g mesh vals, (forall x, List.length x = 8%nat -> custom_jac (brach_names ["theta"]) g x = Ok (vals x)) -> ~ is_jacobian 8 4 (time_residual ["theta"] g mesh) (fun x i j => tri rows cols (vals x) i j).
Proof.
  exists [0; 1; 1; 2; 2; 0; 1; 2]%nat, [3; 3; 0; 3; 0; 4; 5; 6]%nat. split; [reflexivity|]. intros g mesh vals V J.
  specialize (J [0; 0; 0; 0; 0; 0; 0; 0] 3%nat 3%nat eq_refl ltac:(lia) ltac:(lia)). assert (custom_jac (brach_names ["theta"]) g [0; 0; 0; 0; 0; 0; 0; 0] = Ok (vals [0; 0; 0; 0; 0; 0; 0; 0])) as E by (now apply V).
  assert (tri [0; 1; 1; 2; 2; 0; 1; 2]%nat [3; 3; 0; 3; 0; 4; 5; 6]%nat (vals [0; 0; 0; 0; 0; 0; 0; 0]) 3 3 = 0) as Z.
  { assert (forall A (x y : A), Ok x = Ok y -> x = y) as OI by (intros A x y H; now injection H). apply OI in E. rewrite <- E. cbn; ring. }
  cbn beta in J. rewrite Z in J. unfold pderiv in J. cbn [vget nth] in J.
  assert (forall t, vget 3 (time_residual ["theta"] g mesh [0; 0; 0; t; 0; 0; 0; 0]) = t - 0) as E2 by reflexivity.
  assert (0 = 1) as Q; [|lra]. apply (uniqueness_limite _ _ _ _ J). eapply ext_lim; [intro t; cbn [upd]; apply E2|]. eapply lim_eq; [|der]. ring.
Qed.
Print Assumptions C59_custom_con_refuted.

(** ** The problem in the time domain *)
(** every slide is held by some vector, which is made by the steps of the initial guess *)
Lemma slide_flat : forall roots n pts o jac hess js hs g k SS UU ds, OcpSpec.built roots "Trapezoidal" None n time_states brach_inputs [] pts None o -> sizes jac hess js hs -> num_stages (oc_op o) = (n + 1)%nat ->
  let M := time_model jac hess js hs in List.length SS = (n + 1)%nat -> List.length UU = (n + 1)%nat -> List.length ds = (n + 1)%nat ->
  (forall s, (s <= n)%nat -> nth s SS [] = [s_v k s; s_x k s; s_y k s]) -> (forall s, (s <= n)%nat -> nth s UU [] = [s_th k s]) ->
  exists ret x, rows_forward (forward_with_arrays (names_of M []) (m_forward M g)) SS UU ds = Ok ret /\
    flatten_var (oc_op o) [("states", FArr SS); ("inputs", FArr UU); ("states_dot", FArr (map fst ret)); ("con_outputs", FArr (map snd ret)); ("mesh_scale", FSc (s_T k))] = Ok x /\ records n g o x k.
Proof.
  intros roots n pts o jac hess js hs g k SS UU ds B HS NS M LS LU LD NS1 NU1.
  destruct (flat_guess roots "Trapezoidal" None n pts None o M [] B (time_model_ok jac hess js hs HS) SS UU ds g [("mesh_scale", FSc (s_T k))]) as (ret & x & ER & EX & LX & V1 & V2 & V3 & VM).
  - rewrite NS. split; [exact LS|]. apply Forall_forall. intros r Hr. apply (In_nth _ _ []) in Hr. destruct Hr as (s & Hs & <-). rewrite NS1 by lia. reflexivity.
  - rewrite NS. split; [exact LU|]. apply Forall_forall. intros r Hr. apply (In_nth _ _ []) in Hr. destruct Hr as (s & Hs & <-). rewrite NU1 by lia. reflexivity.
  - rewrite NS. exact LD.
  - reflexivity.
  - exists ret, x. split; [exact ER|]. split; [exact EX|]. constructor; [exact LX|now apply V3|]. intros s Hs. assert (s < num_stages (oc_op o))%nat as Hs' by lia.
    destruct (VM s Hs') as (sd & out & _ & _ & E & D1 & D2). rewrite (NS1 s Hs), (NU1 s Hs) in E. cbn [M time_model m_states m_inputs m_forward time_states brach_inputs combine] in E.
    change (time_forward [("gravity", g)] (sv (s_v k s) (s_x k s) (s_y k s)) (th_of (s_th k s)) = Ok (sd, out)) in E. rewrite time_fwd in E. injection E as <- <-.
    assert (forall c q v, nth_error time_states c = Some q -> nth c [s_v k s; s_x k s; s_y k s] 0 = v -> val o x "states" q s v) as VS.
    { intros c q v Hc <-. rewrite <- (NS1 s Hs). apply V1; assumption. }
    assert (forall c q v, nth_error brach_inputs c = Some q -> nth c [s_th k s] 0 = v -> val o x "inputs" q s v) as VI.
    { intros c q v Hc <-. rewrite <- (NU1 s Hs). apply V2; assumption. }
    assert (forall nm v, In nm time_states -> dget nm [("v", - g * sin (s_th k s)); ("x", cos (s_th k s) * s_v k s); ("y", sin (s_th k s) * s_v k s)] = Some v -> val o x "states_dot" nm s v) as D.
    { intros nm v Hnm Hv. destruct (D1 nm Hnm) as (w & W1 & W2). rewrite Hv in W1. injection W1 as ->. exact W2. }
    split; [now apply (VS 0%nat)|]. split; [now apply (VS 1%nat)|]. split; [now apply (VS 2%nat)|]. split; [now apply (VI 0%nat)|].
    split; [|split]; (apply D; [cbn; tauto|reflexivity]).
Qed.
Lemma slide_vector : forall roots n pts o jac hess js hs g k, OcpSpec.built roots "Trapezoidal" None n time_states brach_inputs [] pts None o -> sizes jac hess js hs -> num_stages (oc_op o) = (n + 1)%nat ->
  exists x, records n g o x k.
Proof.
  intros roots n pts o jac hess js hs g k B HS NS.
  destruct (slide_flat roots n pts o jac hess js hs g k (map (fun s => [s_v k s; s_x k s; s_y k s]) (seq 0 (n + 1))) (map (fun s => [s_th k s]) (seq 0 (n + 1))) (repeat 0 (n + 1)) B HS NS) as (_ & x & _ & _ & H).
  - now rewrite map_length, seq_length.
  - now rewrite map_length, seq_length.
  - apply repeat_length.
  - intros s Hs. rewrite (nth_map_in _ _ _ _ _ _ 0%nat) by (rewrite seq_length; lia). rewrite seq_nth by lia. reflexivity.
  - intros s Hs. rewrite (nth_map_in _ _ _ _ _ _ 0%nat) by (rewrite seq_length; lia). rewrite seq_nth by lia. reflexivity.
  - now exists x.
Qed.

Lemma tunes_plain : forall dx dy cs, Forall tunes cs -> Forall plain cs /\ bounds_asked time_bounds cs = map of_bound time_bounds /\ bcs_asked (time_bcs dx dy) cs = map of_bc (time_bcs dx dy).
Proof.
  intros dx dy cs H. assert (Forall plain cs /\ flat_map (fun c => match c with SBounds bs => bs | _ => [] end) cs = [] /\ flat_map (fun c => match c with SBCs bs => bs | _ => [] end) cs = []) as (A & B & C).
  { induction H as [|c cs Hc _ (A & B & C)]; [repeat constructor|]. destruct c; try contradiction; (split; [constructor; [exact I|exact A]|]); cbn [flat_map app]; auto. }
  split; [exact A|]. unfold bounds_asked, bcs_asked. rewrite B, C, !app_nil_r. auto.
Qed.

(** For every number of intervals, end point, gravity, positive scales and every history of changes of gravity and scales: what IPOPT gets is the problem of the
    fastest slide, and what the caller gets back is what IPOPT returned, in physical units. *)
Theorem C59_solve : forall roots jac hess js hs ipopt n dx dy scales g cs a guess, sizes jac hess js hs -> oracle_ok roots None -> (1 <= n)%nat ->
  let M := time_model jac hess js hs in let cfg := (time_config n dx dy scales) in
  history roots M cfg None g cs = Ok a -> Forall tunes cs -> Forall (fun c => 0 < sc_v c) (scales_asked scales cs) -> List.length guess = num_dec (oc_op (a_o a)) ->
  let o := a_o a in let now := params_asked g cs in let phys := physical o time_states brach_inputs [] None (scales_asked scales cs) in
  exists q y0 pl, points_used n None pl /\ phys y0 guess /\
    (forall y x, List.length y = List.length guess -> phys y x ->
       (ip_feasible (List.length guess) q y <-> exists k, records n now o x k /\ slides n pl now dx dy k) /\
       (ip_optimum (List.length guess) q y <-> exists k, records n now o x k /\ slides n pl now dx dy k /\ forall k', slides n pl now dx dy k' -> s_T k <= s_T k')) /\
    (forall y status, ipopt q y0 = (y, status) -> List.length y = List.length guess ->
       (status = (-13)%Z -> ocp_solve M ipopt a guess = Raise RuntimeError) /\ (status <> (-13)%Z -> exists x, phys y x /\ ocp_solve M ipopt a guess = Ok (x, status))).
Proof.
  intros roots jac hess js hs ipopt n dx dy scales g cs a guess HS HO Hn M cfg HH HT HSc Lg o now phys.
  destruct (tunes_plain dx dy cs HT) as (HP & EB & EC). pose proof (time_model_ok jac hess js hs HS) as MO.
  destruct (the_facts roots R M cfg None g cs a HO Hn (ltac:(discriminate)) MO HH HP) as (o' & fm & pl' & ops & h & F).
  pose proof (fa_o _ _ _ _ _ _ _ _ _ _ _ _ _ F) as EO. fold o in EO. subst o'. pose proof (fa_built _ _ _ _ _ _ _ _ _ _ _ _ _ F) as BU. pose proof (fa_tr _ _ _ _ _ _ _ _ _ _ _ _ _ F) as TR. pose proof (fa_ns _ _ _ _ _ _ _ _ _ _ _ _ _ F) as NS.
  change (make_transcription roots (cf_tname cfg) (cf_tns cfg)) with (Ok trapezoidal) in TR. injection TR as TR. rewrite <- TR in NS.
  assert (num_stages (oc_op o) = (n + 1)%nat) as NS'. { change (num_stages (oc_op o) = (n * 1 + 1)%nat) in NS. lia. }
  destruct (C51_solve roots R M ipopt cfg None g cs a guess HO Hn (ltac:(discriminate)) MO (ltac:(congruence)) (ltac:(discriminate)) HH HP HSc Lg) as (t & pl & q & y0 & T1 & T2 & T3).
  change (make_transcription roots (cf_tname cfg) (cf_tns cfg)) with (Ok trapezoidal) in T1. injection T1 as <-. cbv zeta in T3. fold o in T3.
  change (cf_cyclic cfg) with false in T3. change (cf_bounds cfg) with time_bounds in T3. change (cf_bcs cfg) with (time_bcs dx dy) in T3. rewrite EB, EC in T3. change (cf_n cfg) with n in T3, T2. change (cf_points cfg) with (@None (list R)) in T2.
  destruct T3 as (P1 & P2 & P3). exists q, y0, pl. split; [exact T2|]. split; [exact P1|]. split; [|exact P3].
  intros y x Ly HX. destruct (P2 y x Ly HX) as [F1 F2]. clear P2 P3.
  change (m_forward M (params_asked g cs)) with (fun (ds di : dict R) (_ : R) => time_forward [("gravity", now)] ds di) in F1, F2.
  change (m_states M) with time_states in F1, F2. change (m_inputs M) with brach_inputs in F1, F2. change (cf_con cfg) with (@nil string) in F1, F2. change (m_residuals M) with (@nil string) in F1, F2. change (cf_pen cfg) with (@None (dict R)) in F2.
  split.
  - rewrite F1. split.
    + intros TJ. exists (slide_of o x). split; [eapply traj_records; eauto|eapply traj_slides; eauto].
    + intros (k & K1 & K2). eapply slides_traj; eauto.
  - rewrite F2. unfold best. split.
    + intros (TJ & c & HC & HB). exists (slide_of o x). pose proof (traj_records _ _ _ _ _ _ NS' Hn _ TJ) as LG. split; [exact LG|]. split; [eapply traj_slides; eauto|]. intros k' FL'.
      destruct (slide_vector roots n None o jac hess js hs now k' BU HS NS') as (y' & LG').
      assert (forall x k, records n now o x k -> cost o brach_inputs trapezoidal n None None x (s_T k)) as CO.
      { intros x0 k0 L0. exists (s_T k0), (fun s j => nth j [s_th k0 s] 0). split; [apply (rc_T _ _ _ _ _ L0)|]. split; [|lra]. intros s j Hs Hj. cbn in Hs. destruct (rc_at _ _ _ _ _ L0 s ltac:(lia)) as (_ & _ & _ & V6 & _).
        destruct j as [|j]; [exact V6|cbn in Hj; lia]. }
      assert (c = s_T (slide_of o x)) as <-. { destruct HC as (tm & v & Q1 & _ & ->). rewrite (length_fun None _ _ _ _ Q1 (rc_T _ _ _ _ _ LG)). lra. }
      apply (HB y'); [|now apply CO]. exact (slides_traj _ _ _ _ _ _ NS' Hn _ _ LG' FL').
    + intros (k & K1 & K2 & K3). split; [eapply slides_traj; eauto|]. exists (s_T k). split.
      { exists (s_T k), (fun s j => nth j [s_th k s] 0). split; [apply (rc_T _ _ _ _ _ K1)|]. split; [|lra]. intros s j Hs Hj. cbn in Hs. destruct (rc_at _ _ _ _ _ K1 s ltac:(lia)) as (_ & _ & _ & V6 & _).
        destruct j as [|j]; [exact V6|cbn in Hj; lia]. }
      intros y' d TJ' (tm & v & Q1 & _ & ->). pose proof (traj_records _ _ _ _ _ _ NS' Hn _ TJ') as LG'. rewrite (length_fun None _ _ _ _ Q1 (rc_T _ _ _ _ _ LG')). rewrite Rplus_0_r. apply K3. eapply traj_slides; eauto.
Qed.
Print Assumptions C59_solve.
