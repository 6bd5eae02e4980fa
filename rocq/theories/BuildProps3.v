(** C51, continued: the derivatives that IPOPT is given. *)
From Verif Require Import Base RBase TreeModel UtilsModel UtilsProofs UtilsProofs2 UtilsProps IoModel CollocModel CollocProofs CollocProps MeshModel MeshProofs MeshProps OcpModel OcpProofs OcpSpec OcpProps NlpModel NlpSpec NlpProofs NlpProofs2 NlpProps NlpProps2 NlpProps3
  AlgModel AlgSpec AlgProofs AlgProps ConvModel ConvSpec ConvProps CyclicModel CyclicSpec CyclicProps ObjModel ObjProps BoundModel BoundSpec BoundProofs BoundProps ScaleModel ScaleSpec ScaleProofs ScaleProps SolverProofs SolverProps BuildModel BuildSpec BuildProofs BuildProofs2 BuildProofs3 BuildProofs4 BuildProofs5 BuildProofs6 BuildProps.

Lemma hess_on_of : forall T n f h, is_hessian n f h -> is_hessian_on T n f h.
Proof. intros T n f h (g & H1 & H2). exists g. split; [exact H1|]. intros; now apply H2. Qed.
Lemma hess_on_ext : forall T n f f' h h', (forall x, List.length x = n -> f' x = f x) -> (forall x i j, List.length x = n -> h' x i j = h x i j) -> is_hessian_on T n f h -> is_hessian_on T n f' h'.
Proof. intros T n f f' h h' E E' (g & H1 & H2). exists g. split; [eapply is_gradient_ext; eassumption|]. intros x j k Hx Hj Hk HT. rewrite E' by assumption. now apply H2. Qed.
Lemma vdot_rsum : forall l v m, List.length l = m -> List.length v = m -> vdot l v = rsum (map (fun i => vget i l * vget i v) (seq 0 m)).
Proof.
  intros l; induction l as [|a l IH]; intros v m <- Lv; destruct v as [|b v]; try discriminate; [reflexivity|]. cbn [List.length seq map]. rewrite <- seq_shift, map_map. cbn in Lv. injection Lv as Lv.
  change (vdot (a :: l) (b :: v)) with (a * b + vdot l v). rewrite (IH v (List.length l) eq_refl Lv). reflexivity.
Qed.
Lemma linear_hess : forall T n m f J (lam : list R), List.length lam = m -> (forall x, List.length x = n -> List.length (f x) = m) -> is_jacobian n m f (fun _ => J) -> is_hessian_on T n (fun x => vdot lam (f x)) (fun _ _ _ => 0).
Proof.
  intros T n m f J lam Hl Hf HJ. exists (fun _ j => rsum (map (fun i => vget i lam * J i j) (seq 0 m))). split; [|intros; apply pderiv_const].
  intros x j Hx Hj. apply pderiv_ext_len with (f := fun y => rsum (map (fun i => vget i lam * vget i (f y)) (seq 0 m))).
  - intros y Hy. rewrite (vdot_rsum lam (f y) m); [reflexivity|assumption|apply Hf; congruence].
  - apply (pderiv_rsum (fun i y => vget i lam * vget i (f y)) (fun i => vget i lam * J i j)). intros i Hi. apply in_seq in Hi. apply pderiv_scal. apply HJ; [assumption|lia|assumption].
Qed.
Lemma tri_nil : forall v i j, tri [] [] v i j = 0.
Proof. reflexivity. Qed.
Lemma bind_hs : forall nin ncon f j h js hs c, make_con nin ncon f j h (Some js) (Some hs) = Ok c -> c_f c = f /\ c_j c = j /\ c_h c = h /\ c_jr c = fst js /\ c_jc c = snd js /\ c_hr c = fst hs /\ c_hc c = snd hs.
Proof.
  intros nin ncon f j h js hs c E2. unfold make_con in E2. apply bind_ok in E2. destruct E2 as (c1 & X1 & X2). unfold update_hess_scales in X2. apply bind_ok in X2. destruct X2 as (? & _ & X2). apply bind_ok in X2. destruct X2 as (? & _ & X2). injection X2 as <-. cbn. 
  unfold update_jac_scales in X1. apply bind_ok in X1. destruct X1 as (? & _ & X1). apply bind_ok in X1. destruct X1 as (? & _ & X1). injection X1 as <-. cbn. auto 10.
Qed.

Section Hess.
Variables (roots : list R -> list R) (tn : string) (tns : option nat) (n : nat) (st inp con : list string) (pts : option (list R)) (fixed : option R) (o : ocp).
Hypothesis B : OcpSpec.built roots tn tns n st inp con pts fixed o.
Let op := oc_op o.
Lemma continuity_hess : forall c lam, continuity_con o = Ok c -> List.length lam = num_continuity_cons o ->
  is_hessian_on (fun i j => (i <= j)%nat) (num_dec op) (fun x => vdot lam (c_f c x)) (fun x => tri (c_hr c) (c_hc c) (c_h c x lam)).
Proof using B.
  intros c lam E Hl. pose proof (built_ok _ _ _ _ _ _ _ _ _ _ B) as (K & _ & _ & En & _ & _ & _ & Em & EF & _). unfold continuity_con in E. apply bind_ok in E. destruct E as (js & _ & E). rewrite EF in E. destruct fixed as [s|].
  - unfold make_linear in E. apply bind_hs in E. destruct E as (-> & _ & -> & _ & _ & -> & ->). destruct (C25_fixed_mesh_linear _ _ _ _ _ _ _ _ _ _ B) as (f & Hf & Hh). specialize (Hh lam Hl). apply (hess_on_of (fun i j => (i <= j)%nat)) in Hh.
    eapply hess_on_ext; [| |exact Hh]; [|reflexivity]. intros x Hx. cbv beta. rewrite (Hf x Hx). reflexivity.
  - apply bind_ok in E. destruct E as (hs & EH & E). apply bind_hs in E. destruct E as (-> & _ & -> & _ & _ & -> & ->). destruct (C25_hessian _ _ _ _ _ _ _ _ _ B) as (hr & hc & hv & f & EH' & Hf & Hv & _ & _ & _ & _ & _ & Hh). rewrite EH in EH'. injection EH' as ->. specialize (Hh lam Hl).
    eapply hess_on_ext; [| |exact Hh].
    + intros x Hx. cbv beta. rewrite (Hf x Hx). reflexivity.
    + intros x i j Hx. cbv beta. destruct (Hv lam Hl) as (-> & _). reflexivity.
Qed.
Lemma cyclic_hess : forall excl cv c lam, (forall nm, In nm st \/ In nm inp -> no_char dot nm = true) -> build_cyclic_vars o excl = Ok cv -> cyclic_pairs st inp excl <> [] -> cyclic_con o cv = Ok c -> List.length lam = List.length cv ->
  is_hessian_on (fun i j => (i <= j)%nat) (num_dec op) (fun x => vdot lam (c_f c x)) (fun x => tri (c_hr c) (c_hc c) (c_h c x lam)).
Proof using B.
  intros excl cv c lam HD EC NE E Hl. destruct (cyclic_piece _ _ _ _ _ _ _ _ _ _ B excl cv HD EC NE) as (c' & E' & A & N1 & N2 & _ & Hf & HJ). rewrite E in E'. injection E' as <-.
  unfold cyclic_con in E. apply bind_ok in E. destruct E as (js & _ & E). unfold make_linear in E. apply bind_hs in E. destruct E as (Q1 & Q2 & -> & Q4 & Q5 & -> & ->).
  eapply hess_on_ext; [intros; reflexivity| |apply (linear_hess _ _ (List.length cv) (c_f c) (tri (c_jr c) (c_jc c) (c_j c (ones (num_dec op)))) lam Hl)].
  - reflexivity.
  - intros x Hx. destruct A as [W _]. rewrite <- N2. apply W. now rewrite N1.
  - cbv beta iota in Q2. rewrite Q2 in *. exact HJ.
Qed.
End Hess.

Lemma jac_mono : forall n m f J J', (forall x, J x = J' x) -> is_jacobian n m f J -> is_jacobian n m f J'.
Proof. intros n m f J J' E H x i j Hx Hi Hj. rewrite <- E. now apply H. Qed.

(** For every history as in C51_solve, if the model's own derivative functions are exact: the gradient, the jacobian with its structure and the hessian
    of the lagrangian with its structure that IPOPT is given are the derivatives of the objective and the constraints that it is given. The position on
    the mesh may enter the model only if the mesh is fixed (see C35_mesh_dependence_refuted). *)
Theorem C51_derivatives : forall roots P (M : smodel P) cfg fixed p cs a,
  oracle_ok roots (cf_tns cfg) -> (1 <= cf_n cfg)%nat -> m_states M <> [] -> model_ok M (cf_con cfg) -> (fixed <> None -> In "time" (m_states M)) ->
  (forall w, cf_pen cfg = Some w -> NoDup (keys w) /\ incl (keys w) (m_inputs M)) ->
  history roots M cfg fixed p cs = Ok a -> Forall plain cs -> Forall (fun c => 0 < sc_v c) (scales_asked (cf_scales cfg) cs) ->
  model_derivatives M (cf_con cfg) -> (fixed <> None \/ position_free M) ->
  let N := num_dec (oc_op (a_o a)) in
  exists pr, problem_of M a = Ok pr /\ p_n pr = N /\
  exists F G C J jr jc, prob_jacobianstructure pr = Ok (jr, jc) /\
    (forall x, List.length x = N -> prob_objective pr x = Ok (F x) /\ prob_gradient pr x = Ok (G x) /\ prob_constraints pr x = Ok (C x) /\ prob_jacobian pr x = Ok (J x)) /\
    is_gradient N F (fun x j => vget j (G x)) /\ is_jacobian N (num_con pr) C (fun x => tri jr jc (J x)) /\
    forall fac lam, List.length lam = num_con pr -> exists V hr hc, snd (prob_hessianstructure pr) = Ok (hr, hc) /\
      (forall x, List.length x = N -> snd (prob_hessian pr x lam fac) = Ok (V x)) /\
      exists g, is_gradient N (fun x => fac * F x + vdot lam (C x)) g /\ forall x i j, List.length x = N -> (i < N)%nat -> (j < N)%nat -> (i <= j)%nat -> pderiv (fun y => g y i) x j (tri hr hc (V x) i j).
Proof.
  intros roots P M cfg fixed p cs a HO Hn Hst MO HT HW HH HP HS MD MF.
  destruct (the_facts roots P M cfg fixed p cs a HO Hn Hst MO HH HP) as (o & fm & pl & ops & h & F).
  rewrite (fa_o _ _ _ _ _ _ _ _ _ _ _ _ _ F). intro N.
  destruct (the_pieces roots P M cfg fixed p cs a MO HT HW o fm pl ops h F) as (ob & ob2 & c1 & c2 & c3 & C).
  destruct (the_problem roots P M cfg fixed p cs a o fm pl ops h ob ob2 c1 c2 c3 F C) as (EP & PI).
  set (pr := assembled (num_dec (oc_op o)) ob ob2 c1 c2 c3 (s_dec (a_sc a)) (s_alg (a_sc a)) (s_cont (a_sc a))) in *.
  pose proof (fa_built _ _ _ _ _ _ _ _ _ _ _ _ _ F) as B. pose proof (fa_sok _ _ _ _ _ _ _ _ _ _ _ _ _ F) as SK. pose proof (fa_sc _ _ _ _ _ _ _ _ _ _ _ _ _ F) as ESC.
  assert (reachable N pr) as RE by (exact (prob_reachable pr PI eq_refl)).
  assert (p_scales pr = s_dec (a_sc a)) as EPS by reflexivity.
  assert (forall l, Forall (fun v => 0 < v) l -> Forall (fun v => v <> 0) l) as NZ by (intros l Hl; eapply Forall_impl; [|exact Hl]; intros; cbv beta in *; lra).
  assert (Forall (fun v => v <> 0) (p_scales pr)) as DP by (apply NZ; rewrite EPS, ESC; exact (dec_pos _ _ _ _ _ _ _ M _ B h _ SK HS)).
  (* the pieces *)
  destruct (time_piece _ _ _ _ _ _ _ _ _ _ B) as (ob' & g0 & T1 & T2 & TG & TE & TH & _); [intros X; apply HT; intro Y; apply X; unfold fixed_now; now rewrite Y|].
  pose proof (co_obj _ _ _ _ _ _ _ _ _ _ _ _ _ _ C) as EO. rewrite T1 in EO. injection EO as ->.
  assert (forall q, ob2 = Some q -> is_gradient N (o_f q) (fun x j => vget j (o_g q x)) /\ is_hessian N (o_f q) (fun x => tri (o_hr q) (o_hc q) (o_h q x))) as PQ.
  { intros q ->. pose proof (co_pen _ _ _ _ _ _ _ _ _ _ _ _ _ _ C) as D. destruct (cf_pen cfg) as [w|]; [|contradiction]. destruct (HW w eq_refl) as [W1 W2]. destruct (penalty_piece _ _ _ _ _ _ _ _ _ _ B w W1 W2) as (q' & g & Q1 & _ & Q3 & Q4 & Q5 & _). destruct D as (D & _). rewrite D in Q1. injection Q1 as <-.
    split; [|exact Q5]. intros x j Hx Hj. rewrite (Q4 x Hx). now apply Q3. }
  assert (shift_ok (fun i j => (i <= j)%nat)) as SH by (intros u v k; lia).
  assert (unit_jacobian (unit_problem M (cf_con cfg)) /\ unit_hessian (fun i j => (i <= j)%nat) (unit_problem M (cf_con cfg))) as (UJ & UH).
  { split.
    - intros m q. exact (proj1 (MD q m)).
    - intros l m q Hl. destruct (proj2 (MD q m) l Hl) as (g & G1 & G2). exists g. split; [exact G1|]. intros x i j Hx Hi Hj Hij. apply G2; assumption. }
  destruct (C35_derivatives P (unit_problem M (cf_con cfg)) (oc_op o) fm (fun x => or_zero (get_mesh_scale o x)) (params_asked p cs) (fun i j => (i <= j)%nat)) as (c0 & E0 & K1 & K2 & KJ & KH & _);
    [symmetry; exact (nvs_eq _ _ _ _ _ _ _ M _ B)|exact (nvs_pos _ _ _ _ _ _ _ M _ B)|apply F|exact (shapes M (cf_con cfg) MO)| |exact UJ|exact SH|exact UH|].
  { destruct MF as [MF|MF]; [left|right].
    - intros x y. pose proof (built_ok _ _ _ _ _ _ _ _ _ _ B) as (_ & _ & _ & _ & _ & _ & _ & _ & EF & _). unfold get_mesh_scale. rewrite EF. unfold fixed_now. destruct fixed; [reflexivity|congruence].
    - intros x m m' q. cbn [unit_problem u_f]. unfold flat_implicit, implicit, forward_with_arrays. destruct (array_to_dict (names_of M (cf_con cfg) "states") _) as [ds|]; [|reflexivity]. cbn [bind]. destruct (array_to_dict (names_of M (cf_con cfg) "inputs") _) as [di|]; [|reflexivity]. cbn [bind]. now rewrite (MF q ds di m m'). }
  assert (c0 = c1) as ->. { pose proof (co_1 _ _ _ _ _ _ _ _ _ _ _ _ _ _ C) as X. unfold algebra_con in X. rewrite (fa_o _ _ _ _ _ _ _ _ _ _ _ _ _ F), (fa_con _ _ _ _ _ _ _ _ _ _ _ _ _ F), (fa_mesh _ _ _ _ _ _ _ _ _ _ _ _ _ F), (fa_p _ _ _ _ _ _ _ _ _ _ _ _ _ F) in X. congruence. }
  destruct (continuity_piece _ _ _ _ _ _ _ _ _ _ B) as (c2' & D1 & _ & D2 & D3 & _ & _ & DJ). pose proof (co_2 _ _ _ _ _ _ _ _ _ _ _ _ _ _ C) as E2. rewrite D1 in E2. injection E2 as ->.
  assert (forall c, c3 = Some c -> is_jacobian N (c_ncon c) (c_f c) (fun x => tri (c_jr c) (c_jc c) (c_j c x)) /\ Forall (fun v => v <> 0) (c_con c) /\
    forall l, List.length l = c_ncon c -> is_hessian_on (fun i j => (i <= j)%nat) N (fun x => vdot l (c_f c x)) (fun x => tri (c_hr c) (c_hc c) (c_h c x l))) as P3.
  { intros c ->. pose proof (co_3 _ _ _ _ _ _ _ _ _ _ _ _ _ _ C) as D. pose proof (fa_cyc _ _ _ _ _ _ _ _ _ _ _ _ _ F) as E. destruct (a_cyc a) as [cv|]; [|contradiction]. destruct D as (EC & _). destruct E as (E1 & E3 & _).
    destruct (cyclic_piece _ _ _ _ _ _ _ _ _ _ B (cf_noncyclic cfg) cv (mo_dots _ _ MO) E1 E3) as (c' & X1 & _ & _ & X4 & X5 & _ & X7). rewrite EC in X1. injection X1 as <-. rewrite X4. split; [exact X7|]. split.
    - rewrite X5. apply Forall_forall. intros v Hv. apply repeat_spec in Hv. subst v. lra.
    - intros l Hl. exact (cyclic_hess _ _ _ _ _ _ _ _ _ _ B _ cv c l (mo_dots _ _ MO) E1 E3 EC Hl). }
  assert (forall c, In c (values (p_cons pr)) -> exists c' s k, c = rescaled c' s k /\ Forall (fun v => v <> 0) k /\ is_jacobian N (c_ncon c') (c_f c') (fun x => tri (c_jr c') (c_jc c') (c_j c' x)) /\
    forall l, List.length l = c_ncon c' -> is_hessian_on (fun i j => (i <= j)%nat) N (fun x => vdot l (c_f c' x)) (fun x => tri (c_hr c') (c_hc c') (c_h c' x l))) as PC.
  { intros c Hc. cbn in Hc. destruct Hc as [<-|[<-|Hc]].
    - exists c1, (s_dec (a_sc a)), (s_alg (a_sc a)). split; [reflexivity|]. split; [rewrite ESC; exact (alg_pos _ _ _ _ _ _ _ M _ B h _ SK HS)|]. rewrite K1 in KJ, KH. split; [exact KJ|exact KH].
    - exists c2, (s_dec (a_sc a)), (s_cont (a_sc a)). split; [reflexivity|]. split; [rewrite ESC; exact (cont_pos _ _ _ _ _ _ _ M _ B h _ SK HS)|]. rewrite D3. split; [exact DJ|]. intros l Hl. exact (continuity_hess _ _ _ _ _ _ _ _ _ _ B c2 l D1 Hl).
    - destruct c3 as [c3|]; [|contradiction]. cbn in Hc. destruct Hc as [<-|[]]. destruct (P3 c3 eq_refl) as (Y1 & Y2 & Y3). exists c3, (s_dec (a_sc a)), (c_con c3). auto. }
  exists pr. split; [exact EP|]. split; [reflexivity|].
  destruct (C16_gradient N pr RE ltac:(discriminate)) as (Fo & G & H1 & H2).
  { intros o' Ho. cbn in Ho. destruct Ho as [<-|Ho]; [|destruct ob2 as [q|]; [|contradiction]; destruct Ho as [<-|[]]; exact (proj1 (PQ q eq_refl))]. cbn [orescaled o_f o_g]. intros x j Hx Hj. rewrite (TE x Hx). now apply TG. }
  destruct (C16_jacobian_exact N pr RE ltac:(discriminate) DP) as (Cc & J & jr & jc & H3 & H4 & H5).
  { intros c Hc. destruct (PC c Hc) as (c' & s & k & -> & Y1 & Y2 & _). cbn [rescaled c_con c_ncon c_f c_jr c_jc c_j]. auto. }
  exists Fo, G, Cc, J, jr, jc. split; [exact H3|]. split; [intros x Hx; destruct (H1 x Hx) as (Y1 & Y2 & _); destruct (H4 x Hx) as (Y3 & Y4); auto|]. split; [exact H2|]. split; [exact H5|].
  intros fac lam Hl. destruct (C17_lagrangian_hessian N pr fac lam RE ltac:(discriminate) ltac:(discriminate) eq_refl DP Hl) as (L & V & hr & hc & Z1 & Z2 & Z3).
  { intros c l Hc Hll. destruct (PC c Hc) as (c' & s & k & -> & _ & _ & Y3). cbn [rescaled c_con c_ncon c_f c_hr c_hc c_h] in *. auto. }
  { intros o' Ho. cbn in Ho. destruct Ho as [<-|Ho]; [|destruct ob2 as [q|]; [|contradiction]; destruct Ho as [<-|[]]; apply hess_on_of; exact (proj2 (PQ q eq_refl))]. cbn [orescaled o_f o_hr o_hc o_h]. apply hess_on_of. exact TH. }
  exists V, hr, hc. split; [exact Z1|]. split; [intros x Hx; apply (Z2 x Hx)|]. destruct Z3 as (g & G1 & G2). exists g. split; [|exact G2].
  eapply is_gradient_ext; [|exact G1]. intros x Hx. destruct (Z2 x Hx) as (_ & f & gg & Y1 & Y2 & ->). destruct (H1 x Hx) as (Y3 & _). destruct (H4 x Hx) as (Y4 & _). congruence.
Qed.
Print Assumptions C51_derivatives.
