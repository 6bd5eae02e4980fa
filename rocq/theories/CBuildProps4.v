(** C56, continued: derivatives of the condensed problem. *)
From Verif Require Import Base RBase TreeModel UtilsModel UtilsProofs UtilsProofs2 IoModel CollocModel CollocProofs CollocProps MeshModel MeshProofs MeshProps OcpModel OcpProofs OcpProofs2 OcpProofs3 OcpSpec OcpProps NlpModel NlpSpec NlpProofs NlpProofs2 NlpProps NlpProps2 NlpProps3
  AlgModel AlgSpec AlgProofs AlgProps ConvModel ConvSpec ConvProps CyclicModel CyclicSpec ObjModel ObjSpec ObjProps BoundModel BoundSpec BoundProofs ScaleModel ScaleSpec ScaleProofs ScaleProps SolverProofs BuildModel BuildSpec BuildProofs BuildProofs2 BuildProofs3 BuildProofs4 BuildProofs5 BuildProofs6 BuildProps BuildProps2 BuildProps3
  CondModel CondSpec CondProofs CondProofs2 CondProofs3 CondProofs4 CondProps CondProps2 CBuildModel CBuildSpec CBuildProofs CBuildProofs2 CBuildProofs3 CBuildProofs4 CBuildProofs5 CBuildProofs6 CBuildProofs7 CBuildProps CBuildProps2 CBuildProps3.




(** ** Jacobians that leave out entries *)
Lemma tri_ones : forall rs cs i j, List.length rs = List.length cs -> 0 <= tri rs cs (repeat 1 (List.length rs)) i j /\ (In (i, j) (combine rs cs) <-> 0 < tri rs cs (repeat 1 (List.length rs)) i j).
Proof.
  induction rs as [|r rs IH]; intros [|c cs] i j L; try discriminate; cbn [List.length repeat combine tri].
  - split; [cbn; lra|]. split; [intros []|cbn; lra].
  - destruct (IH cs i j ltac:(now injection L)) as [H1 H2]. cbn [In]. destruct (Nat.eqb_spec r i) as [->|Hr]; [destruct (Nat.eqb_spec c j) as [->|Hc]|]; cbn.
    + split; [lra|]. split; [lra|auto].
    + rewrite H2. split; [lra|]. split; [intros [X|X]; [congruence|lra]|intro; right; lra].
    + rewrite H2. split; [lra|]. split; [intros [X|X]; [congruence|lra]|intro; right; lra].
Qed.
Fixpoint block (cs : list bcon) (Ds : list (list R -> nat -> nat -> R)) (x : list R) (I j : nat) : R :=
  match cs, Ds with c :: r, D :: Dr => if Nat.ltb I (c_ncon c) then D x I j else block r Dr x (I - c_ncon c)%nat j | _, _ => 0 end.
Lemma block_at : forall cs Ds k c D x i j, nth_error cs k = Some c -> nth_error Ds k = Some D -> (i < c_ncon c)%nat -> block cs Ds x (NlpProofs2.off cs k + i) j = D x i j.
Proof.
  induction cs as [|c0 cs IH]; intros [|D0 Ds] [|k] c D x i j Hc HD Hi; try discriminate; cbn [nth_error] in *.
  - injection Hc as ->. injection HD as ->. cbn [block]. change (NlpProofs2.off (c :: cs) 0 + i)%nat with i. destruct (Nat.ltb_spec i (c_ncon c)); [reflexivity|lia].
  - cbn [block]. change (NlpProofs2.off (c0 :: cs) (S k)) with (c_ncon c0 + NlpProofs2.off cs k)%nat. destruct (Nat.ltb_spec (c_ncon c0 + NlpProofs2.off cs k + i) (c_ncon c0)); [lia|].
    replace (c_ncon c0 + NlpProofs2.off cs k + i - c_ncon c0)%nat with (NlpProofs2.off cs k + i)%nat by lia. eapply IH; eauto.
Qed.
Lemma rows_len : forall cs o, Forall (fun c => List.length (c_jr c) = List.length (c_jc c)) cs -> List.length (concat (jac_rows_from o cs)) = List.length (concat (map c_jc cs)).
Proof. induction cs as [|c cs IH]; intros o H; [reflexivity|]. apply Forall_cons_iff in H. destruct H as [H1 H2]. cbn. rewrite !app_length, map_length, H1, (IH _ H2). reflexivity. Qed.
Lemma ones_concat : forall cs o, concat (map (fun c => repeat 1 (List.length (c_jr c))) cs) = repeat 1 (List.length (concat (jac_rows_from o cs))).
Proof. induction cs as [|c cs IH]; intros o; [reflexivity|]. cbn. rewrite app_length, map_length, repeat_app, <- (IH (o + c_ncon c)%nat). reflexivity. Qed.

Lemma masked_jacobian : forall n p Ds (Z : list R -> nat -> Prop), reachable n p -> p_cons p <> [] ->
  Forall2 (fun c D => masked n Z (c_ncon c) (con_constraints c) (c_jr c) (c_jc c) (con_jacobian c) D) (values (p_cons p)) Ds ->
  exists G J D rs cs, prob_jacobianstructure p = Ok (rs, cs) /\
    (forall x, List.length x = n -> prob_constraints p x = Ok (G x) /\ prob_jacobian p x = Ok (J x)) /\ is_jacobian n (num_con p) G D /\
    (forall x i j, List.length x = n -> (i < num_con p)%nat -> (j < n)%nat -> (In (i, j) (combine rs cs) -> tri rs cs (J x) i j = D x i j) /\ (~ In (i, j) (combine rs cs) -> tri rs cs (J x) i j = 0)) /\
    (forall x i j, List.length x = n -> (i < num_con p)%nat -> (j < n)%nat -> Z x j -> D x i j <> 0 -> In (i, j) (combine rs cs)).
Proof.
  intros n p Ds Z H Hne HD. destruct (reachable_inv n p H) as [I E].
  assert (values (p_cons p) <> []) as Hv by (unfold values; destruct (p_cons p); simpl; congruence).
  assert (forall c, In c (values (p_cons p)) -> con_wf c /\ List.length (c_con c) = c_ncon c /\ c_nin c = n /\ c = rescaled c (p_scales p) (c_con c)) as Q.
  { intros d Hd. apply in_map_iff in Hd. destruct Hd as ([k' c'] & Ek & Hin3). simpl in Ek. subst c'.
    pose proof (pi_c p I) as F. rewrite Forall_forall in F. destruct (F _ Hin3) as ([W Hl] & Hn & Ec). simpl in *.
    split; [assumption|]. split; [assumption|]. split; [congruence|assumption]. }
  destruct (C16_jacobian_stack n p (ones n) H Hne (repeat_length _ _)) as (rs & cs & _ & Es & _ & _ & _).
  assert (rs = concat (jac_rows_from 0 (values (p_cons p))) /\ cs = concat (map c_jc (values (p_cons p)))) as [Ers Ecs].
  { unfold prob_jacobianstructure in Es. rewrite !hstackl_ne in Es; [|intro C; apply Hv; eapply map_eq_nil; exact C|destruct (values (p_cons p)); [congruence|discriminate]]. cbn [bind] in Es. injection Es as E1 E2. auto. }
  exists (fun x => concat (map (fun c => con_constraints c x) (values (p_cons p)))), (fun x => concat (map (fun c => con_jacobian c x) (values (p_cons p)))), (block (values (p_cons p)) Ds), rs, cs.
  assert (forall k c, nth_error (values (p_cons p)) k = Some c -> exists D, nth_error Ds k = Some D /\ is_jacobian n (c_ncon c) (con_constraints c) D /\ (forall x i j, List.length x = n -> (i < c_ncon c)%nat -> (j < n)%nat -> In (i, j) (combine (c_jr c) (c_jc c)) -> tri (c_jr c) (c_jc c) (con_jacobian c x) i j = D x i j) /\
    (forall x i j, List.length x = n -> (i < c_ncon c)%nat -> (j < n)%nat -> Z x j -> D x i j <> 0 -> In (i, j) (combine (c_jr c) (c_jc c)))) as AT.
  { clear -HD. induction HD as [|c0 D0 l l' H0 HD IH]; intros [|k] c Hk; try discriminate; cbn [nth_error] in *; [injection Hk as <-; exists D0; auto|now apply IH]. }
  assert (forall k c i j, nth_error (values (p_cons p)) k = Some c -> (i < c_ncon c)%nat -> In (NlpProofs2.off (values (p_cons p)) k + i, j)%nat (combine rs cs) <-> In (i, j) (combine (c_jr c) (c_jc c))) as AI.
  { intros k c i j Hk Hi. assert (Forall (fun c => List.length (c_jr c) = List.length (c_jc c)) (values (p_cons p))) as FL by (apply Forall_forall; intros d Hd; apply (Q d Hd)).
    assert (List.length (c_jr c) = List.length (c_jc c)) as LC by (apply (Q c); eapply nth_error_In; exact Hk).
    assert (List.length rs = List.length cs) as LR by (rewrite Ers, Ecs; now apply rows_len).
    rewrite (proj2 (tri_ones rs cs (NlpProofs2.off (values (p_cons p)) k + i) j LR)), (proj2 (tri_ones (c_jr c) (c_jc c) i j LC)).
    pose proof (jac_stack (fun c => repeat 1 (List.length (c_jr c))) (values (p_cons p)) 0 k c i j) as X. rewrite (ones_concat _ 0%nat) in X. cbn [Nat.add] in X. rewrite <- Ers, <- Ecs in X. rewrite X; [reflexivity| |exact Hk|exact Hi].
    apply Forall_forall; intros d Hd; destruct (Q d Hd) as (Wd & _); split; [apply Wd|]; split; [apply repeat_length|apply Wd]. }
  split; [assumption|]. split; [|split; [|split]].
  - intros x Hx. split; apply hstackl_ne; intro C; apply Hv; eapply map_eq_nil; exact C.
  - intros x r j Hx Hr Hj. unfold num_con in Hr. destruct (locate _ _ Hr) as (k & c & i & Hk & Hi & ->).
    assert (In c (values (p_cons p))) as Hin by (eapply nth_error_In; eauto). destruct (Q c Hin) as (W & Lc & Nc & Ec). destruct (AT k c Hk) as (D & HkD & D1 & _ & _).
    rewrite (block_at _ _ k c D x i j Hk HkD Hi). apply pderiv_ext_len with (f := fun y => vget i (con_constraints c y)).
    + intros y Hy. symmetry. apply concat_get with (F := fun c => con_constraints c y); auto.
      apply Forall_forall. intros d Hd. destruct (Q d Hd) as (Wd & Ld & Nd & Ed). pose proof (pi_s p I) as Ls. apply (piece_lens d (p_scales p) y Wd ltac:(congruence) Ld Ed ltac:(congruence)).
    + apply D1; congruence.
  - intros x r j Hx Hr Hj. unfold num_con in Hr. destruct (locate _ _ Hr) as (k & c & i & Hk & Hi & ->). destruct (AT k c Hk) as (D & HkD & _ & D2 & _). split; [|apply tri_outside]. intro HI.
    rewrite (block_at _ _ k c D x i j Hk HkD Hi).
    destruct (C16_jacobian_stack n p x H Hne Hx) as (rs2 & cs2 & js & Es2 & Ej & Hst & _). rewrite Es in Es2. injection Es2 as <- <-.
    assert (js = concat (map (fun c => con_jacobian c x) (values (p_cons p)))) as <-.
    { unfold prob_jacobian in Ej. rewrite hstackl_ne in Ej by (intro C; apply Hv; eapply map_eq_nil; exact C). now inversion Ej. }
    unfold NlpProofs2.off. rewrite (Hst k c i j Hk Hi). apply D2; auto. now apply (AI k c i j Hk Hi).
  - intros x r j Hx Hr Hj HZ Hn0. unfold num_con in Hr. destruct (locate _ _ Hr) as (k & c & i & Hk & Hi & ->). destruct (AT k c Hk) as (D & HkD & _ & _ & D3).
    rewrite (block_at _ _ k c D x i j Hk HkD Hi) in Hn0. apply (AI k c i j Hk Hi). now apply (D3 x).
Qed.

(** For every history as in C56_solve, if the model's own derivative functions are exact: the gradient and the hessian of the lagrangian that IPOPT is given
    are the derivatives of the objective and the constraints that it is given, and so are the entries of the jacobian; entries that are not in the
    structure count as 0. The structure has every entry that does not vanish at the vector drawn at construction, but for the column of the mesh scale
    (and unless the mesh scale of a fixed mesh was changed since). *)
Theorem C56_derivatives : forall roots P (M : smodel P) cfg fixed p x0 cs k,
  oracle_ok roots (cf_tns cfg) -> (1 <= cf_n cfg)%nat -> m_states M <> [] -> model_ok M (cf_con cfg) -> (fixed <> None -> In "time" (m_states M)) ->
  (forall w, cf_pen cfg = Some w -> NoDup (keys w) /\ incl (keys w) (m_inputs M)) ->
  chistory roots M cfg fixed p x0 cs = Ok k -> Forall plain cs -> Forall (fun c => 0 < sc_v c) (scales_asked (cf_scales cfg) cs) ->
  exact_derivatives M (cf_con cfg) -> (fixed <> None \/ position_free M) ->
  let N := num_dec (oc_op (a_o (k_a k))) in
  let now := match fixed with Some s => Some (mesh_scale_asked s cs) | None => None end in
  let phys := physical (a_o (k_a k)) (m_states M) (m_inputs M) (cf_con cfg) now (scales_asked (cf_scales cfg) cs) in
  exists pr, cproblem_of M k = Ok pr /\ p_n pr = N /\
  exists F G C J D jr jc, prob_jacobianstructure pr = Ok (jr, jc) /\
    (forall x, List.length x = N -> prob_objective pr x = Ok (F x) /\ prob_gradient pr x = Ok (G x) /\ prob_constraints pr x = Ok (C x) /\ prob_jacobian pr x = Ok (J x)) /\
    is_gradient N F (fun x j => vget j (G x)) /\ is_jacobian N (num_con pr) C D /\
    (forall x i j, List.length x = N -> (i < num_con pr)%nat -> (j < N)%nat -> (In (i, j) (combine jr jc) -> tri jr jc (J x) i j = D x i j) /\ (~ In (i, j) (combine jr jc) -> tri jr jc (J x) i j = 0)) /\
    (forall y i j, List.length y = N -> (i < num_con pr)%nat -> (j < N)%nat -> phys y x0 -> (match fixed with Some s => mesh_scale_asked s cs = s | None => j <> (N - 1)%nat end) -> D y i j <> 0 -> In (i, j) (combine jr jc)) /\
    forall fac lam, List.length lam = num_con pr -> exists V hr hc, snd (prob_hessianstructure pr) = Ok (hr, hc) /\
      (forall x, List.length x = N -> snd (prob_hessian pr x lam fac) = Ok (V x)) /\
      exists g, is_gradient N (fun x => fac * F x + vdot lam (C x)) g /\ forall x i j, List.length x = N -> (i < N)%nat -> (j < N)%nat -> (i <= j)%nat -> pderiv (fun y => g y i) x j (tri hr hc (V x) i j).
Proof.
  intros roots P M cfg fixed p x0 cs k HO Hn Hst MO HT HW HH HP HS MD MF N now phys.
  destruct (the_condensed roots P M cfg fixed p x0 cs k HO Hn Hst MO HT HW HH HP) as (a & o & fm & pl & ops & h & ob & ob2 & c1 & c2 & c3 & cc & o0 & alg0 & js & W).
  destruct W as [_ _ TW F C ST (r0 & B0 & Er0) EOP ST0 WSM WJS WC WA WN WM Wf Wj Wh Wr1 Wr2 Wr3 Wr4 EP PI]. subst r0.
  assert (a_o (k_a k) = o) as EKO by (rewrite (tw_o _ _ _ _ _ TW); apply (fa_o _ _ _ _ _ _ _ _ _ _ _ _ _ F)). unfold phys, N in *. rewrite EKO in *. clear phys N. set (N := num_dec (oc_op o)) in *. set (phys := physical o _ _ _ _ _).
  set (pr := cassembled N ob ob2 cc c3 (s_dec (a_sc a)) (s_alg (a_sc (k_a k)))) in *.
  pose proof (fa_built _ _ _ _ _ _ _ _ _ _ _ _ _ F) as B. pose proof (fa_sok _ _ _ _ _ _ _ _ _ _ _ _ _ F) as SK. pose proof (fa_sc _ _ _ _ _ _ _ _ _ _ _ _ _ F) as ESC. pose proof (fa_ns _ _ _ _ _ _ _ _ _ _ _ _ _ F) as NS.
  change (cf_tname (config_after M cfg)) with (cf_tname cfg) in B. change (cf_tns (config_after M cfg)) with (cf_tns cfg) in B. change (cf_n (config_after M cfg)) with (cf_n cfg) in B, NS. change (cf_con (config_after M cfg)) with (cf_con cfg) in B. change (cf_points (config_after M cfg)) with (cf_points cfg) in B. change (cf_scales (config_after M cfg)) with (cf_scales cfg) in SK, ESC.
  change (fixed_now P fixed cs) with now in *. set (nimp := num_implicit_res (names_of M (cf_con cfg))) in *.
  assert (reachable N pr) as RE by (exact (prob_reachable pr PI eq_refl)).
  assert (p_scales pr = s_dec (a_sc a)) as EPS by reflexivity.
  assert (forall l, Forall (fun v => 0 < v) l -> Forall (fun v => v <> 0) l) as NZ by (intros l Hl; eapply Forall_impl; [|exact Hl]; intros; cbv beta in *; lra).
  assert (Forall (fun v => v <> 0) (p_scales pr)) as DP by (apply NZ; rewrite EPS, ESC; exact (dec_pos _ _ _ _ _ _ _ M _ B h _ SK HS)).
  assert (Forall (fun v => v <> 0) (s_alg (a_sc (k_a k))) /\ List.length (s_alg (a_sc (k_a k))) = c_ncon cc) as (AP & LA).
  { destruct (tw_alg _ _ _ _ _ TW) as (T13 & T14). assert (a_o a = o) as EO by (apply (fa_o _ _ _ _ _ _ _ _ _ _ _ _ _ F)). rewrite EO in T13, T14. rewrite T14. split; [exact (calg_pos _ _ _ _ _ _ _ M _ B (fa_nres _ _ _ _ _ _ _ _ _ _ _ _ _ F) _ T13 HS)|].
    rewrite WM. exact (calg_len _ _ _ _ _ _ _ M (cf_con cfg) B (fa_nres _ _ _ _ _ _ _ _ _ _ _ _ _ F) _ T13). }
  destruct (dec_len _ _ _ _ _ _ _ M _ B h _ SK) as (LD & _). rewrite <- ESC in LD. fold N in LD.
  assert (forall y x, List.length y = N -> (phys y x <-> x = vmul y (s_dec (a_sc a)))) as PH.
  { intros y x Ly. rewrite ESC. exact (physical_iff _ _ _ _ _ _ _ M _ B NS h _ SK y x Ly). }
  (* the objectives *)
  destruct (time_piece _ _ _ _ _ _ _ _ _ _ B) as (ob' & g0 & T1 & T2 & TG & TE & TH & _); [intros X; apply HT; intro Y; apply X; unfold now; now rewrite Y|].
  pose proof (co_obj _ _ _ _ _ _ _ _ _ _ _ _ _ _ C) as EO. rewrite T1 in EO. injection EO as ->.
  assert (forall q, ob2 = Some q -> is_gradient N (o_f q) (fun x j => vget j (o_g q x)) /\ is_hessian N (o_f q) (fun x => tri (o_hr q) (o_hc q) (o_h q x))) as PQ.
  { intros q ->. pose proof (co_pen _ _ _ _ _ _ _ _ _ _ _ _ _ _ C) as D. change (cf_pen (config_after M cfg)) with (cf_pen cfg) in D. destruct (cf_pen cfg) as [w|]; [|contradiction]. destruct (HW w eq_refl) as [W1 W2]. destruct (penalty_piece _ _ _ _ _ _ _ _ _ _ B w W1 W2) as (q' & g & Q1 & _ & Q3 & Q4 & Q5 & _). destruct D as (D & _). rewrite D in Q1. injection Q1 as <-.
    split; [|exact Q5]. intros x j Hx Hj. rewrite (Q4 x Hx). now apply Q3. }
  (* the condensed constraints *)
  assert (position_free M -> forall x m m' p, u_f (unit_problem M (cf_con cfg)) x m p = u_f (unit_problem M (cf_con cfg)) x m' p) as PF.
  { intros PF x m m' q. cbn [unit_problem u_f]. unfold flat_implicit, implicit, forward_with_arrays. destruct (array_to_dict (names_of M (cf_con cfg) "states") _) as [ds|]; [|reflexivity]. cbn [bind]. destruct (array_to_dict (names_of M (cf_con cfg) "inputs") _) as [di|]; [|reflexivity]. cbn [bind]. now rewrite (PF q ds di m m'). }
  assert (exact_algebra o c1) as XA.
  { apply (sd_exact _ _ _ _ _ _ _ ST).
    - intros m q. exact (proj1 (MD q m)).
    - intros l m q Hl. destruct (proj2 (MD q m) l Hl) as (g & G1 & G2). exists g. split; [exact G1|]. intros x i j Hx Hi Hj _. apply G2; assumption.
    - destruct MF as [MF|MF]; [left; unfold now; destruct fixed; [discriminate|congruence]|right; now apply PF]. }
  pose proof (sd_ea _ _ _ _ _ _ _ ST) as EA. fold nimp in EA. pose proof (built_ok _ _ _ _ _ _ _ _ _ _ B) as (K & Kn & Kd & _ & _ & _ & _ & _ & EFX & _). pose proof (built_ok _ _ _ _ _ _ _ _ _ _ B0) as (K0 & Kn0 & Kd0 & _).
  assert (num_condensed o0 nimp = num_condensed o nimp) as ENC. { unfold num_condensed, num_intervals, num_states. rewrite EOP. reflexivity. }
  destruct (structure_form o0 K0 Kn0 Kd0 alg0 nimp (sd_ea _ _ _ _ _ _ _ ST0) x0 js WJS) as (T & EJS & TZ). rewrite ENC, EOP in EJS. fold N in EJS.
  set (Z' := fun x (j : nat) => x = x0 /\ now = fixed /\ dscl o j = 0).
  assert (masked N Z' (c_ncon cc) (c_f cc) (c_jr cc) (c_jc cc) (c_j cc) (cjac o c1 nimp)) as MC.
  { rewrite WM, Wr1, Wr2. split; [|split].
    - intros x i j Lx Hi Hj. apply pderiv_ext_len with (f := fun y => vget i (cond_list o c1 nimp y)).
      + intros y Ly. specialize (Wf y ltac:(fold N; congruence)). rewrite (condensed_eq o K Kn Kd c1 nimp EA y ltac:(fold N; congruence)) in Wf. now injection Wf as <-.
      + exact (cjac_exact o K Kn Kd c1 nimp EA (xa_jac _ _ XA) x i j Lx Hi Hj).
    - intros x i j Lx Hi Hj HI. specialize (Wj x Lx). unfold condensed_jacobian in Wj. rewrite (big_jac_eq o K Kn Kd c1 nimp EA (dots_of M (cf_con cfg) p) fm x (fun _ => sd_fwd _ _ _ _ _ _ _ ST) Lx) in Wj. cbn [bind] in Wj.
      assert (forall A (x y : A), Ok x = Ok y -> x = y) as OI by (intros A u v X; now injection X). apply OI in Wj. rewrite <- Wj, EJS. rewrite tri_nonzeros by assumption. rewrite EJS in HI. apply in_nonzeros in HI. destruct (Req_EM_T (T i j) 0); [tauto|reflexivity].
    - intros x i j Lx Hi Hj (-> & EN & DZ) HD. rewrite EJS. apply in_nonzeros. split; [exact Hi|]. split; [exact Hj|]. destruct (WSM EN) as (-> & ->). rewrite TZ; assumption. }
  assert (forall l, List.length l = c_ncon cc -> is_hessian_on (fun i j => (i <= j)%nat) N (fun x => vdot l (c_f cc x)) (fun x => tri (c_hr cc) (c_hc cc) (c_h cc x l))) as HC.
  { intros l Hl. rewrite WM in Hl. destruct (C29_hessian _ _ _ _ _ _ _ _ _ _ _ _ B EA XA) as (f & Hf & Hh). destruct (Hh l Hl) as (H & H1 & H2 & H3). fold N in Hf, H1, H2, H3.
    assert (is_hessian_on (fun i j => (i <= j)%nat) N (fun x => vdot l (f x)) H) as HX.
    { destruct now as [s|] eqn:En; [apply hess_on_of, H2; discriminate|]. destruct (H3 eq_refl) as (g & G1 & G2). exists g. split; [exact G1|]. intros x i j Lx Hi Hj Hij. apply G2; auto. split; [exact Hij|]. right.
      apply (sd_free _ _ _ _ _ _ _ ST); [|reflexivity]. apply PF. destruct MF as [MF|MF]; [|exact MF]. exfalso. apply MF. unfold now in En. destruct fixed; [discriminate|reflexivity]. }
    eapply hess_on_ext; [| |exact HX].
    - intros x Lx. cbv beta. specialize (Wf x Lx). rewrite (Hf x Lx) in Wf. injection Wf as <-. reflexivity.
    - intros x i j Lx. cbv beta. destruct (H1 x Lx) as (v & Ev & _ & _ & ->). rewrite Wr3, Wr4. rewrite (Wh x l Lx Hl) in Ev. injection Ev as <-. reflexivity. }
  assert (forall c, c3 = Some c -> con_arg c /\ c_nin c = N /\ is_jacobian N (c_ncon c) (c_f c) (fun x => tri (c_jr c) (c_jc c) (c_j c x)) /\ Forall (fun v => v <> 0) (c_con c) /\
    forall l, List.length l = c_ncon c -> is_hessian_on (fun i j => (i <= j)%nat) N (fun x => vdot l (c_f c x)) (fun x => tri (c_hr c) (c_hc c) (c_h c x l))) as P3.
  { intros c ->. pose proof (co_3 _ _ _ _ _ _ _ _ _ _ _ _ _ _ C) as D. pose proof (fa_cyc _ _ _ _ _ _ _ _ _ _ _ _ _ F) as E. change (cf_noncyclic (config_after M cfg)) with (cf_noncyclic cfg) in E. destruct (a_cyc a) as [cv|]; [|contradiction]. destruct D as (EC & CA & CN & _). destruct E as (E1 & E3 & _).
    destruct (cyclic_piece _ _ _ _ _ _ _ _ _ _ B (cf_noncyclic cfg) cv (mo_dots _ _ MO) E1 E3) as (c' & X1 & _ & _ & X4 & X5 & _ & X7). rewrite EC in X1. injection X1 as <-. split; [exact CA|]. split; [exact CN|]. rewrite X4. split; [exact X7|]. split.
    - rewrite X5. apply Forall_forall. intros v Hv. apply repeat_spec in Hv. subst v. lra.
    - intros l Hl. exact (cyclic_hess _ _ _ _ _ _ _ _ _ _ B _ cv c l (mo_dots _ _ MO) E1 E3 EC Hl). }
  exists pr. split; [exact EP|]. split; [reflexivity|].
  destruct (C16_gradient N pr RE ltac:(discriminate)) as (Fo & G & H1 & H2).
  { intros o' Ho. cbn in Ho. destruct Ho as [<-|Ho]; [|destruct ob2 as [q|]; [|contradiction]; destruct Ho as [<-|[]]; exact (proj1 (PQ q eq_refl))]. cbn [orescaled o_f o_g]. intros x j Hx Hj. rewrite (TE x Hx). now apply TG. }
  set (Z := fun y (j : nat) => phys y x0 /\ now = fixed /\ dscl o j = 0).
  assert (p_cons pr <> []) as NE by (unfold pr, cassembled, cpieces; cbn [p_cons]; destruct c3; discriminate).
  assert (masked N Z (c_ncon cc) (con_constraints (rescaled cc (s_dec (a_sc a)) (s_alg (a_sc (k_a k))))) (c_jr cc) (c_jc cc) (con_jacobian (rescaled cc (s_dec (a_sc a)) (s_alg (a_sc (k_a k))))) (fun y i j => cjac o c1 nimp (vmul y (s_dec (a_sc a))) i j * (vget j (s_dec (a_sc a)) / vget i (s_alg (a_sc (k_a k)))))) as MSC.
  { pose proof (masked_scaled cc (s_dec (a_sc a)) (s_alg (a_sc (k_a k))) (cjac o c1 nimp) Z Z' (proj1 WA)) as X. rewrite WN in X. apply X; try assumption. intros y j Ly (Y1 & Y2 & Y3). split; [|auto]. symmetry. now apply PH. }
  assert (exists Ds, Forall2 (fun c D => masked N Z (c_ncon c) (con_constraints c) (c_jr c) (c_jc c) (con_jacobian c) D) (values (p_cons pr)) Ds) as (Ds & HDs).
  { unfold pr, cassembled, cpieces. cbn [p_cons]. destruct c3 as [c|].
    - destruct (P3 c eq_refl) as (CA & CN & CJ & CP & _). eexists [_; _]. cbn [values map snd]. constructor; [|constructor; [exact MSC|constructor]].
      apply (masked_exact N Z (c_ncon c) (con_constraints (rescaled c (s_dec (a_sc a)) (c_con c))) (c_jr c) (c_jc c) (con_jacobian (rescaled c (s_dec (a_sc a)) (c_con c)))).
      pose proof (resc_is_jacobian c (s_dec (a_sc a)) (c_con c) (proj1 CA)) as X. rewrite CN in X. apply X; try assumption. apply CA.
    - eexists [_]. constructor; [exact MSC|constructor]. }
  destruct (masked_jacobian N pr Ds Z RE NE HDs) as (Cc & J & D & jr & jc & H3 & H4 & H5 & H6 & H7).
  exists Fo, G, Cc, J, D, jr, jc. split; [exact H3|]. split; [intros x Hx; destruct (H1 x Hx) as (Y1 & Y2 & _); destruct (H4 x Hx) as (Y3 & Y4); auto|]. split; [exact H2|]. split; [exact H5|]. split; [exact H6|]. split.
  { intros y i j Ly Hi Hj Py Hf HD. apply (H7 y i j Ly Hi Hj); [|exact HD]. split; [exact Py|]. unfold now in EFX |- *. unfold dscl. rewrite EFX. destruct fixed as [s|]; [split; [now rewrite Hf|reflexivity]|]. split; [reflexivity|].
    destruct (index_scale o K Kn Kd EFX) as (_ & _ & ND). destruct (Nat.eqb_spec (OcpProofs.isc o) j) as [E|]; [|reflexivity]. exfalso. apply Hf. rewrite <- E. unfold N. rewrite ND. lia. }
  intros fac lam Hl. destruct (C17_lagrangian_hessian N pr fac lam RE NE ltac:(discriminate) eq_refl DP Hl) as (L & V & hr & hc & Z1 & Z2 & Z3).
  { intros c l Hc Hll. unfold pr, cassembled, cpieces in Hc. cbn [p_cons] in Hc. destruct c3 as [c'|].
    - cbn in Hc. destruct Hc as [<-|[<-|[]]]; cbn [rescaled c_con c_ncon c_f c_hr c_hc c_h] in *; [now apply (P3 c' eq_refl)|now apply HC].
    - cbn in Hc. destruct Hc as [<-|[]]; cbn [rescaled c_con c_ncon c_f c_hr c_hc c_h] in *. now apply HC. }
  { intros o' Ho. cbn in Ho. destruct Ho as [<-|Ho]; [|destruct ob2 as [q|]; [|contradiction]; destruct Ho as [<-|[]]; apply hess_on_of; exact (proj2 (PQ q eq_refl))]. cbn [orescaled o_f o_hr o_hc o_h]. apply hess_on_of. exact TH. }
  exists V, hr, hc. split; [exact Z1|]. split; [intros x Hx; apply (Z2 x Hx)|]. destruct Z3 as (g & G1 & G2). exists g. split; [|exact G2].
  eapply is_gradient_ext; [|exact G1]. intros x Hx. destruct (Z2 x Hx) as (_ & f & gg & Y1 & Y2 & ->). destruct (H1 x Hx) as (Y3 & _). destruct (H4 x Hx) as (Y4 & _). congruence.
Qed.
Print Assumptions C56_derivatives.
