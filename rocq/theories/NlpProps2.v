(** Property theorems C18 (solving in scaled variables) and C19 (linear constraint caching). *)
From Verif Require Import Base RBase TreeModel NlpModel NlpSpec NlpProofs NlpProofs2 NlpProps.

(** *** C18 *)
Lemma ele_scale : forall b s y, 0 < s -> (ele (ediv b s) y <-> ele b (y * s)).
Proof.
  intros [|r|] s y Hs; simpl; try (destruct (Rlt_dec s 0); [lra|simpl; tauto]).
  split; intro H.
  - apply Rmult_le_compat_r with (r := s) in H; [|lra]. unfold Rdiv in H. rewrite Rmult_assoc, Rinv_l, Rmult_1_r in H by lra. exact H.
  - apply Rmult_le_reg_r with s; [assumption|]. unfold Rdiv. rewrite Rmult_assoc, Rinv_l, Rmult_1_r by lra. exact H.
Qed.
Lemma ege_scale : forall b s y, 0 < s -> (ege (ediv b s) y <-> ege b (y * s)).
Proof.
  intros [|r|] s y Hs; simpl; try (destruct (Rlt_dec s 0); [lra|simpl; tauto]).
  split; intro H.
  - apply Rmult_le_compat_r with (r := s) in H; [|lra]. unfold Rdiv in H. rewrite Rmult_assoc, Rinv_l, Rmult_1_r in H by lra. exact H.
  - apply Rmult_le_reg_r with s; [assumption|]. unfold Rdiv. rewrite Rmult_assoc, Rinv_l, Rmult_1_r by lra. exact H.
Qed.
Lemma F2_scale : forall (P : ebound -> R -> Prop), (forall b s y, 0 < s -> (P (ediv b s) y <-> P b (y * s))) ->
  forall lb s y, List.length lb = List.length s -> List.length y = List.length s -> Forall (fun v => 0 < v) s ->
  (Forall2 P (map2 ediv lb s) y <-> Forall2 P lb (vmul y s)).
Proof.
  intros P HP lb; induction lb as [|b lb IH]; intros [|v s] [|w y] Hl Hy Hs; simpl in *; try discriminate.
  - split; constructor.
  - inversion Hs; subst. specialize (IH s y ltac:(lia) ltac:(lia) H2). split; intro H; inversion H; subst; constructor.
    + now apply HP. + now apply IH. + now apply HP. + now apply IH.
Qed.

(** Bounds: within the scaled bounds iff the unscaled vector is within the user's bounds *)
Theorem C18_bounds : forall p lb ub cl cu y, Forall (fun v => 0 < v) (p_scales p) ->
  List.length lb = List.length (p_scales p) -> List.length ub = List.length (p_scales p) -> List.length y = List.length (p_scales p) ->
  let q := construct_ipopt p lb ub cl cu in
  (within (ip_lb q) (ip_ub q) y <-> within lb ub (vmul y (p_scales p))).
Proof.
  intros p lb ub cl cu y Hs Hl Hu Hy q. unfold within, q; simpl.
  rewrite (F2_scale ele ele_scale), (F2_scale ege ege_scale) by assumption. tauto.
Qed.
Print Assumptions C18_bounds.

Lemma within_zero : forall m g, within (repeat (Fin 0) m) (repeat (Fin 0) m) g <-> List.length g = m /\ Forall (fun v => v = 0) g.
Proof.
  intros m g. unfold within. split.
  - revert g; induction m as [|m IH]; intros g [H1 H2]; simpl in *; inversion H1 as [|? v ? g' A1 B1]; subst; [split; constructor|].
    inversion H2 as [|? ? ? ? A2 B2]; subst. destruct (IH g' (conj B1 B2)) as [L F]. split; [simpl; lia|]. constructor; [simpl in *; lra|assumption].
  - intros [L F]. subst m. induction F as [|v g Hv F IH]; simpl; [split; constructor|]. destruct IH. subst v.
    split; constructor; simpl; auto; lra.
Qed.

Lemma vdiv_zero : forall a s, List.length a = List.length s -> Forall (fun v => v <> 0) s ->
  (Forall (fun v => v = 0) (vdiv a s) <-> Forall (fun v => v = 0) a).
Proof.
  intros a; induction a as [|v a IH]; intros [|w s] L F; simpl in *; try discriminate; [unfold vdiv; simpl; tauto|].
  inversion F; subst. unfold vdiv in *. simpl. specialize (IH s ltac:(lia) H2).
  assert (v / w = 0 <-> v = 0) as K.
  { split; intro E; [|subst; unfold Rdiv; apply Rmult_0_l]. unfold Rdiv in E. apply Rmult_integral in E. destruct E as [E|E]; [assumption|].
    exfalso. now apply (Rinv_neq_0_compat w H1). }
  split; intro H; inversion H; subst; constructor; tauto.
Qed.

Lemma Forall_concat_map : forall X (P : R -> Prop) (F G : X -> list R) l,
  (forall c, In c l -> (Forall P (F c) <-> Forall P (G c))) ->
  (Forall P (concat (map F l)) <-> Forall P (concat (map G l))).
Proof.
  intros X P F G l; induction l as [|c r IH]; intro H; simpl; [tauto|]. rewrite !Forall_app.
  rewrite (H c (or_introl eq_refl)), IH by (intros; apply H; simpl; auto). tauto.
Qed.

Definition con_scales_ok (p : prob) : Prop := forall c, In c (values (p_cons p)) -> Forall (fun v => v <> 0) (c_con c).

Lemma pos_nz : forall s, Forall (fun v => 0 < v) s -> Forall (fun v => v <> 0) s.
Proof. intros s H. eapply Forall_impl; [|exact H]. intros; simpl in *; lra. Qed.

(** Feasibility is preserved and reflected by unscaling *)
Theorem C18_feasible : forall n p lb ub y, reachable n p -> p_cons p <> [] -> Forall (fun v => 0 < v) (p_scales p) -> con_scales_ok p ->
  List.length lb = n -> List.length ub = n -> List.length y = n ->
  let zero := repeat (Fin 0) (num_con p) in
  (ip_feasible n (construct_ipopt p lb ub zero zero) y <-> user_feasible p lb ub (vmul y (p_scales p))).
Proof.
  intros n p lb ub y H Hne Hs Hc Hl Hu Hy zero. destruct (reachable_inv n p H) as [I E]. pose proof (pi_s p I) as Ls.
  unfold ip_feasible, user_feasible.
  pose proof (C18_bounds p lb ub zero zero y Hs ltac:(congruence) ltac:(congruence) ltac:(congruence)) as B. simpl in B. simpl.
  assert (prob_constraints p y = Ok (concat (map (fun c => con_constraints c y) (values (p_cons p))))) as EC
    by (apply (C16_constraints_concat n p y H Hne Hy)).
  destruct (C15_counts n p y H Hne Hy) as (g & _ & _ & Eg & Lg & _). rewrite EC in Eg. inversion Eg as [Eg']. rewrite <- Eg' in Lg.
  assert (Forall (fun v => v = 0) (concat (map (fun c => con_constraints c y) (values (p_cons p)))) <->
          Forall (fun v => v = 0) (user_constraints p (vmul y (p_scales p)))) as Z.
  { apply Forall_concat_map. intros c Hin. apply in_map_iff in Hin as Hin'. destruct Hin' as ([k c'] & Ek & Hin2). simpl in Ek. subst c'.
    pose proof (pi_c p I) as F. rewrite Forall_forall in F. destruct (F _ Hin2) as ([W Hlc] & Hn & Ec). simpl in *.
    unfold con_constraints. rewrite Ec at 3. simpl. assert (c_in c = p_scales p) as -> by (rewrite Ec; reflexivity).
    apply vdiv_zero; [|now apply Hc]. rewrite (wf_f c W); [congruence|]. rewrite vmul_length; congruence. }
  split.
  - intros (_ & Hw & g' & Eg2 & Hg). rewrite EC in Eg2. inversion Eg2; subst g'. apply within_zero in Hg.
    split; [rewrite vmul_length; congruence|]. split; [now apply B|]. now apply Z.
  - intros (_ & Hw & Hg). split; [assumption|]. split; [now apply B|]. eexists; split; [exact EC|]. apply within_zero.
    split; [congruence|]. now apply Z.
Qed.
Print Assumptions C18_feasible.

Lemma obj_in_scales : forall p o, prob_inv p -> In o (values (p_objs p)) -> o_in o = p_scales p.
Proof.
  intros p o I H. apply in_map_iff in H. destruct H as ([k o'] & Ek & Hin). simpl in Ek. subst o'.
  pose proof (pi_o p I) as F. rewrite Forall_forall in F. destruct (F _ Hin) as (_ & Eo). simpl in Eo. now rewrite Eo.
Qed.

Lemma objective_scaled : forall p y, prob_inv p -> p_objs p <> [] -> prob_objective p y = Ok (user_objective p (vmul y (p_scales p))).
Proof.
  intros p y I Hne. unfold prob_objective, user_objective.
  rewrite hstackl_ne by (unfold values; destruct (p_objs p); simpl; congruence). simpl. f_equal.
  assert (forall o, In o (values (p_objs p)) -> o_in o = p_scales p) as Hin by (intros; now apply obj_in_scales).
  induction (values (p_objs p)) as [|o r IH]; simpl; [reflexivity|]. rewrite IH by (intros; apply Hin; simpl; auto).
  unfold obj_objective. rewrite (Hin o) by (simpl; auto). reflexivity.
Qed.

(** Optimality is preserved and reflected by unscaling *)
Theorem C18_optimum : forall n p lb ub y, reachable n p -> p_cons p <> [] -> p_objs p <> [] ->
  Forall (fun v => 0 < v) (p_scales p) -> con_scales_ok p ->
  List.length lb = n -> List.length ub = n -> List.length y = n ->
  let zero := repeat (Fin 0) (num_con p) in
  (ip_optimum n (construct_ipopt p lb ub zero zero) y <-> user_optimum p lb ub (vmul y (p_scales p))).
Proof.
  intros n p lb ub y H Hne Hno Hs Hc Hl Hu Hy zero. destruct (reachable_inv n p H) as [I E]. pose proof (pi_s p I) as Ls.
  pose proof (pos_nz _ Hs) as Nz. unfold ip_optimum, user_optimum. unfold zero in *.
  rewrite (C18_feasible n p lb ub y) by assumption.
  assert (forall z, ip_objective (construct_ipopt p lb ub (repeat (Fin 0) (num_con p)) (repeat (Fin 0) (num_con p))) z = Ok (user_objective p (vmul z (p_scales p)))) as EO
    by (intro z; simpl; now apply objective_scaled).
  split.
  - intros (F & v & Ev & Hmin). split; [assumption|]. intros x Hx. rewrite EO in Ev. inversion Ev; subst v.
    assert (List.length x = List.length (p_scales p)) as Lx by (destruct Hx; congruence).
    specialize (Hmin (vdiv x (p_scales p)) (user_objective p x)). rewrite EO, vmul_vdiv in Hmin by assumption. apply Hmin; [|reflexivity].
    apply C18_feasible; auto; [rewrite vdiv_length; congruence|]. now rewrite vmul_vdiv.
  - intros (F & Hmin). split; [assumption|]. eexists; split; [apply EO|]. intros z w Hz Ew. rewrite EO in Ew. inversion Ew; subst w.
    apply Hmin. refine (proj1 (C18_feasible n p lb ub z H Hne Hs Hc Hl Hu _) Hz). apply Hz.
Qed.
Print Assumptions C18_optimum.

Lemma ensure_spec : forall n p, reachable n p -> exists p', ensure_objective p = Ok p' /\ reachable n p' /\ p_objs p' <> [] /\
  p_cons p' = p_cons p /\ p_scales p' = p_scales p /\ (p_objs p <> [] -> p' = p) /\
  (forall x, user_objective p' x = user_objective p x).
Proof.
  intros n p H. destruct (reachable_inv n p H) as [I E]. unfold ensure_objective. destruct (p_objs p) as [|ko r] eqn:Eo.
  - assert (exists c, const_obj (p_n p) = Ok c /\ obj_wf (p_n p) c /\ o_f c = (fun _ => 0)) as (c & Ec & Wc & Fc).
    { unfold const_obj, make_obj, obj_update_hess_scales. simpl. eexists; split; [reflexivity|]. split; [|reflexivity].
      constructor; simpl; auto; try (intros; apply repeat_length). }
    rewrite Ec. cbn [bind]. destruct (add_objective_spec p "const_obj" c I Wc) as [_ H2]. rewrite H2 by (rewrite Eo; simpl; tauto).
    eexists; split; [reflexivity|]. split.
    { destruct H as (ops & Hops & Hp). exists (ops ++ [PAddO "const_obj" c]). split.
      - apply Forall_app. split; [assumption|]. constructor; [simpl; rewrite <- E; exact Wc|constructor].
      - unfold prun. rewrite fold_left_app. simpl. fold (prun (make_prob n) ops). rewrite <- Hp. rewrite H2 by (rewrite Eo; simpl; tauto). reflexivity. }
    simpl. rewrite Eo. simpl. split; [discriminate|]. repeat split; try congruence. intro x. unfold user_objective. simpl. rewrite Eo. simpl.
    rewrite Fc. lra.
  - exists p. rewrite Eo. repeat split; auto; discriminate.
Qed.

(** The whole solve: whatever the optimizer does, its answer is unscaled; the starting point it gets
    unscales to the user's guess; and its optima are exactly the user's optima. *)
Theorem C18_solve : forall ipopt n p lb ub guess, reachable n p -> p_cons p <> [] ->
  Forall (fun v => 0 < v) (p_scales p) -> con_scales_ok p ->
  List.length lb = n -> List.length ub = n -> List.length guess = n ->
  let zero := repeat (Fin 0) (num_con p) in
  exists p' q y0, p_cons p' = p_cons p /\ p_scales p' = p_scales p /\ (p_objs p <> [] -> p' = p) /\
    List.length y0 = n /\ vmul y0 (p_scales p) = guess /\
    (forall y, List.length y = n -> (ip_optimum n q y <-> user_optimum p lb ub (vmul y (p_scales p)))) /\
    (forall y, List.length y = n -> (ip_feasible n q y <-> user_feasible p lb ub (vmul y (p_scales p)))) /\
    (forall y st, ipopt q y0 = (y, st) ->
       (st = (-13)%Z -> solve ipopt p lb ub zero zero guess = Raise RuntimeError) /\
       (st <> (-13)%Z -> solve ipopt p lb ub zero zero guess = Ok (p', (vmul y (p_scales p), st)))).
Proof.
  intros ipopt n p lb ub guess H Hne Hs Hc Hl Hu Hg zero. destruct (ensure_spec n p H) as (p' & E1 & H' & Ho & Ec & Es & Eq & Eu).
  destruct (reachable_inv n p H) as [I E]. pose proof (pi_s p I) as Ls. destruct (reachable_inv n p' H') as [I' E'].
  assert (num_con p' = num_con p) as En by (unfold num_con; now rewrite Ec).
  assert (con_scales_ok p') as Hc' by (unfold con_scales_ok; rewrite Ec; exact Hc).
  assert (forall x, user_feasible p' lb ub x <-> user_feasible p lb ub x) as UF.
  { intro x. unfold user_feasible, user_constraints. rewrite E, E', Ec. tauto. }
  exists p', (construct_ipopt p' lb ub zero zero), (vdiv guess (p_scales p)).
  split; [assumption|]. split; [assumption|]. split; [assumption|]. split; [rewrite vdiv_length; congruence|].
  split; [apply vmul_vdiv; [congruence | now apply pos_nz]|]. split; [|split].
  - intros y Hy. unfold zero. rewrite <- En. rewrite (C18_optimum n p') by (auto; rewrite ?Ec, ?Es; auto). rewrite Es.
    unfold user_optimum. rewrite UF. split; intros [F M]; (split; [assumption|]); intros z Hz.
    + rewrite <- !Eu. apply M. now apply UF.
    + rewrite !Eu. apply M. now apply UF.
  - intros y Hy. unfold zero. rewrite <- En. rewrite (C18_feasible n p') by (auto; rewrite ?Ec, ?Es; auto). rewrite Es. apply UF.
  - intros y st Hip. unfold solve. rewrite E1. cbn [bind]. rewrite Es, Hip. split; intro Hst.
    + subst st. reflexivity.
    + apply Z.eqb_neq in Hst. now rewrite Hst.
Qed.
Print Assumptions C18_solve.

Example C18_nonvacuous : let p := prun (make_prob 2) ex_ops in
  reachable 2 p /\ p_cons p <> [] /\ p_scales p = [2; 3] /\ Forall (fun v => 0 < v) (p_scales p) /\ con_scales_ok p /\
  within [Fin (-1); NegInf] [Fin 5; PosInf] (vmul [1; 2] (p_scales p)) /\
  user_feasible p [Fin (-1); NegInf] [Fin 5; PosInf] [0; 0].
Proof.
  simpl. split; [exact (proj1 (proj2 C15_nonvacuous))|]. split; [discriminate|]. split; [reflexivity|]. split; [repeat constructor; lra|].
  split. { intros c Hc. simpl in Hc. destruct Hc as [<-|[<-|[]]]; repeat constructor; lra. }
  split. { split; repeat constructor; simpl; lra. }
  split; [reflexivity|]. split; [split; repeat constructor; simpl; lra|].
  unfold user_constraints; simpl; unfold vget; simpl. repeat constructor; lra.
Qed.

(** Finding: nothing rejects a negative scale, and then the bounds given to the optimizer are wrong:
    0.5 is within the user's bounds [0,1] but its scaled image is not within the optimizer's. *)
Theorem C18_negative_scale_refuted : exists p, reachable 1 p /\ p_scales p = [-1] /\
  let q := construct_ipopt p [Fin 0] [Fin 1] [] [] in
  within [Fin 0] [Fin 1] (vmul [-(1/2)] (p_scales p)) /\ ~ within (ip_lb q) (ip_ub q) [-(1/2)].
Proof.
  exists (prun (make_prob 1) [PScales [-1]]). split; [exists [PScales [-1]]; split; [repeat constructor|reflexivity]|].
  split; [reflexivity|]. simpl. split; [split; repeat constructor; simpl; lra|].
  intros [_ H]. inversion H; subst. simpl in H3. unfold Rdiv in *. replace (/ -1) with (-1) in H3 by lra. lra.
Qed.
Print Assumptions C18_negative_scale_refuted.

(** Finding: constraint bounds are handed over unscaled, so with constraint scales other than 1 only
    zero bounds keep their meaning: g(x) = x0 scaled by 2, wanted within [1,1]. *)
Definition lin_con : bcon := rescaled {| c_nin := 1; c_ncon := 1; c_f := fun x => [vget 0 x]; c_j := fun _ => [1]; c_h := fun _ _ => [];
  c_jr := [0%nat]; c_jc := [0%nat]; c_hr := []; c_hc := []; c_in := []; c_con := []; c_js := []; c_hs := [] |} (ones 1) [2].
Theorem C18_constraint_bounds_refuted : exists p, reachable 1 p /\ con_scales_ok p /\ p_scales p = [1] /\
  let q := construct_ipopt p [NegInf] [PosInf] [Fin 1] [Fin 1] in
  user_constraints p [1] = [1] /\ ~ ip_feasible 1 q [1].
Proof.
  exists (prun (make_prob 1) [PAddC "a" lin_con]). split.
  { exists [PAddC "a" lin_con]. split; [|reflexivity]. repeat constructor; simpl; auto; lia. }
  split. { intros c Hc. simpl in Hc. destruct Hc as [<-|[]]. repeat constructor; simpl; lra. }
  split; [reflexivity|]. split; [reflexivity|]. intros (_ & _ & g & Eg & [Hg _]).
  unfold construct_ipopt, prob_constraints in Eg; simpl in Eg. inversion Eg; subst. inversion Hg; subst. simpl in H2.
  unfold vget in H2; simpl in H2. lra.
Qed.
Print Assumptions C18_constraint_bounds_refuted.

(** *** C19 *)
Definition lin_shapes (nin ncon : nat) (f j : list R -> list R) (js : list nat * list nat) : Prop :=
  List.length (fst js) = List.length (snd js) /\ Forall (fun r => (r < ncon)%nat) (fst js) /\ Forall (fun c => (c < nin)%nat) (snd js) /\
  (forall x, List.length x = nin -> List.length (f x) = ncon) /\ (forall x, List.length x = nin -> List.length (j x) = List.length (fst js)).

Lemma make_linear_ok : forall nin ncon f j js cache, lin_shapes nin ncon f j js ->
  exists c, make_linear nin ncon f j js cache = Ok c /\ con_wf c /\ c_jr c = fst js /\ c_jc c = snd js /\ c_hr c = [] /\ c_hc c = [].
Proof.
  intros nin ncon f j js cache (H1 & H2 & H3 & H4 & H5). unfold make_linear, make_con.
  match goal with |- exists _, bind (update_jac_scales ?c0) _ = _ /\ _ => set (c00 := c0) end.
  assert (con_wf c00) as W.
  { constructor; simpl; auto. intros x Hx. destruct cache; auto. apply H5. apply repeat_length. }
  rewrite (update_jac_ok c00 W) by apply repeat_length. cbn [bind].
  rewrite update_hess_ok; [|eapply con_wf_same; eauto|apply repeat_length].
  eexists; split; [reflexivity|]. split; [eapply con_wf_same; eauto|]. simpl. auto.
Qed.

(** Under every history of scale changes the cached and the uncached object agree. *)
Theorem C19_cached_equals_uncached : forall nin ncon f j js ops, lin_shapes nin ncon f j js ->
  (forall x y, List.length x = nin -> List.length y = nin -> j x = j y) ->
  Forall (sop_ok nin ncon) ops ->
  exists c0 u0 c u, make_linear nin ncon f j js true = Ok c0 /\ make_linear nin ncon f j js false = Ok u0 /\
    foldM apply_sop ops c0 = Ok c /\ foldM apply_sop ops u0 = Ok u /\
    (forall x, List.length x = nin -> con_constraints c x = con_constraints u x /\ con_jacobian c x = con_jacobian u x) /\
    (forall x lam, con_hessian c x lam = [] /\ con_hessian u x lam = []) /\
    c_jr c = c_jr u /\ c_jc c = c_jc u /\ c_hr c = [] /\ c_hc c = [] /\ c_hr u = [] /\ c_hc u = [].
Proof.
  intros nin ncon f j js ops S Hj Hops.
  destruct (make_linear_ok nin ncon f j js true S) as (c0 & M1 & W1 & R1 & C1 & R1' & C1').
  destruct (make_linear_ok nin ncon f j js false S) as (u0 & M2 & W2 & R2 & C2 & R2' & C2').
  pose proof M1 as M1x. pose proof M2 as M2x. unfold make_linear in M1x, M2x.
  destruct (make_con_ok _ _ _ _ _ _ _ _ M1x W1) as (E & E1 & E2 & E3 & E4 & E5).
  destruct (make_con_ok _ _ _ _ _ _ _ _ M2x W2) as (F & F1 & F2 & F3 & F4 & F5).
  assert (List.length (ones nin) = c_nin c0) as L1 by (rewrite E1; apply repeat_length).
  assert (List.length (ones ncon) = c_ncon c0) as L2 by (rewrite E2; apply repeat_length).
  assert (List.length (ones nin) = c_nin u0) as L3 by (rewrite F1; apply repeat_length).
  assert (List.length (ones ncon) = c_ncon u0) as L4 by (rewrite F2; apply repeat_length).
  destruct (run_sops ops c0 (ones nin) (ones ncon) W1 L1 L2) as (G1 & G2 & G3); [now rewrite E1, E2|].
  destruct (run_sops ops u0 (ones nin) (ones ncon) W2 L3 L4) as (K1 & K2 & K3); [now rewrite F1, F2|].
  rewrite <- E in G1. rewrite <- F in K1.
  exists c0, u0. eexists; eexists. split; [exact M1|]. split; [exact M2|]. split; [exact G1|]. split; [exact K1|]. split.
  - intros x Hx. unfold con_constraints, con_jacobian. simpl. rewrite E3, E4, F3, F4, R1, R2, C1, C2. split; [reflexivity|]. f_equal.
    apply Hj; [apply repeat_length|]. rewrite vmul_length; congruence.
  - split; [|simpl; rewrite R1, R2, C1, C2; auto 10]. intros x lam. unfold con_hessian. simpl. rewrite E5, F5. split; reflexivity.
Qed.
Print Assumptions C19_cached_equals_uncached.

(** The declared empty hessian is the true one. *)
Theorem C19_hessian_exact : forall nin ncon f j js cache ops c0 c lam, lin_shapes nin ncon f j js ->
  (forall x y, List.length x = nin -> List.length y = nin -> j x = j y) ->
  is_jacobian nin ncon f (fun x => tri (fst js) (snd js) (j x)) ->
  make_linear nin ncon f j js cache = Ok c0 -> Forall (sop_ok nin ncon) ops -> foldM apply_sop ops c0 = Ok c ->
  Forall (fun v => v <> 0) (last_in (ones nin) ops) -> Forall (fun v => v <> 0) (last_con (ones ncon) ops) -> List.length lam = ncon ->
  is_jacobian nin ncon (con_constraints c) (fun x => tri (c_jr c) (c_jc c) (con_jacobian c x)) /\
  is_hessian_on (fun _ _ => True) nin (fun x => vdot lam (con_constraints c x)) (fun x => tri (c_hr c) (c_hc c) (con_hessian c x lam)).
Proof.
  intros nin ncon f j js cache ops c0 c lam S Hj D M Hops Hrun Ni Nc Hl.
  destruct (make_linear_ok nin ncon f j js cache S) as (c0' & M1 & W1 & R1 & C1 & R1' & C1'). rewrite M in M1. inversion M1; subst c0'. pose proof M as Mx. unfold make_linear in Mx.
  split.
  - eapply (C14_scaled_jacobian nin ncon f _ _ _ _ c0 ops c Mx W1 Hops Hrun Ni Nc). rewrite R1, C1. destruct cache; [|exact D].
    intros x i k Hx Hi Hk. rewrite (Hj (ones nin) x); [now apply D | apply repeat_length | exact Hx].
  - apply (C14_scaled_hessian (fun _ _ => True) nin ncon f _ _ _ _ c0 ops c lam Mx W1 Hops Hrun Ni Hl).
    intros l Hll. rewrite R1', C1'.
    pose (J := fun i k => tri (fst js) (snd js) (j (ones nin)) i k).
    exists (fun x k => rsum (map (fun i => vget i l * J i k) (seq 0 ncon))). split.
    + intros x k Hx Hk. destruct S as (S1 & S2 & S3 & S4 & S5).
      apply pderiv_ext_len with (f := fun y => rsum (map (fun i => vget i l * vget i (f y)) (seq 0 ncon))).
      { intros y Hy. assert (List.length (f y) = ncon) as Lf by (apply S4; congruence). clear -Hll Lf. unfold vdot, vmul.
        revert l Hll Lf. generalize (f y). intros v l; revert v ncon; induction l as [|a l IH]; intros [|b v] [|n] H1 H2; simpl in *; try discriminate; auto.
        rewrite <- seq_shift, map_map. unfold vget at 1 2. simpl. f_equal. rewrite <- (IH v n) by lia. reflexivity. }
      apply pderiv_rsum. intros i Hi. apply in_seq in Hi. apply pderiv_scal. unfold J.
      rewrite (Hj (ones nin) x); [apply D; auto; lia | apply repeat_length | exact Hx].
    + intros x i k Hx Hi Hk _. eapply pderiv_eq; [|apply pderiv_const]. reflexivity.
Qed.
Print Assumptions C19_hessian_exact.

(** Without constancy the cached jacobian is wrong: g(x) = x0^2 declared linear. *)
Theorem C19_nonlinear_refuted : exists f j js, lin_shapes 1 1 f j js /\
  is_jacobian 1 1 f (fun x => tri (fst js) (snd js) (j x)) /\
  exists c u, make_linear 1 1 f j js true = Ok c /\ make_linear 1 1 f j js false = Ok u /\ con_jacobian c [3] <> con_jacobian u [3].
Proof.
  exists (fun x => [vget 0 x * vget 0 x]), (fun x => [2 * vget 0 x]), ([0%nat], [0%nat]). split.
  { repeat split; simpl; auto; repeat constructor. }
  split.
  - intros x i k Hx Hi Hk. assert (i = 0%nat) by lia. assert (k = 0%nat) by lia. subst.
    eapply pderiv_eq; [|apply (pderiv_mult (vget 0) (vget 0)); apply pderiv_coord; lia]. simpl. lra.
  - eexists; eexists. split; [reflexivity|]. split; [reflexivity|]. unfold con_jacobian, with_hs, with_js; simpl. unfold vget; simpl.
    intro C. inversion C. lra.
Qed.
Print Assumptions C19_nonlinear_refuted.

Example C19_nonvacuous : lin_shapes 2 1 (fun x => [vget 0 x - 4 * vget 1 x]) (fun _ => [1; -4]) ([0;0], [0;1])%nat /\
  is_jacobian 2 1 (fun x => [vget 0 x - 4 * vget 1 x]) (fun x => tri [0;0]%nat [0;1]%nat [1; -4]) /\
  Forall (sop_ok 2 1) [SIn [2;3]; SCon [5]; SIn [4;4]].
Proof.
  split. { repeat split; simpl; auto; repeat constructor. }
  split; [|repeat constructor].
  intros x i k Hx Hi Hk. assert (i = 0%nat) by lia. subst i.
  apply pderiv_ext with (f := fun y => vget 0 y + (-4) * vget 1 y); [intro y; unfold vget; simpl; ring|].
  eapply pderiv_eq; [|apply (pderiv_plus (vget 0) (fun y => -4 * vget 1 y)); [apply pderiv_coord; lia|apply pderiv_scal, pderiv_coord; lia]].
  destruct k as [|[|k]]; [| |lia]; simpl; ring.
Qed.
