(** C29: the condensed problem (derivative variables substituted by the state equations) against the full one. *)
From Verif Require Import Base RBase TreeModel UtilsModel UtilsProofs UtilsProofs2 CollocModel CollocProofs CollocProofs2 CollocProps
  NlpModel NlpProofs NlpProofs2 MeshModel MeshProofs MeshProps OcpModel OcpProofs OcpProofs2 OcpProofs3 OcpSpec OcpProps CondModel CondSpec CondProofs CondProofs2 CondProofs3 CondProofs4.

Lemma all_zero_vget : forall l : list R, Forall (fun v => v = 0) l <-> forall i, (i < List.length l)%nat -> vget i l = 0.
Proof.
  intro l. rewrite Forall_forall. split.
  - intros H i Hi. apply H. unfold vget. now apply nth_In.
  - intros H v Hv. destruct (In_nth _ _ 0 Hv) as (i & Hi & <-). now apply H.
Qed.

Lemma restl_vget : forall o, ocp_ok o -> (1 <= num_intervals o)%nat -> (1 <= num_states o)%nat -> forall alg nimp x, explicit_algebra o alg nimp ->
  List.length (restl o alg nimp x) = (num_stages (oc_op o) * (nimp - num_states o))%nat /\
  forall k r, (k < num_stages (oc_op o))%nat -> (r < nimp - num_states o)%nat -> vget (k * (nimp - num_states o) + r) (restl o alg nimp x) = vget (k * nimp + (num_states o + r)) (con_constraints alg x).
Proof.
  intros o K Hn Hd alg nimp x EA. unfold restl. set (q := (nimp - num_states o)%nat).
  assert (Forall (fun v => List.length v = q) (map (fun k => map (fun r => vget (k * nimp + (num_states o + r)) (con_constraints alg x)) (seq 0 q)) (seq 0 (num_stages (oc_op o))))) as F.
  { apply Forall_forall. intros v Hv. apply in_map_iff in Hv. destruct Hv as (k & <- & _). now rewrite map_length, seq_length. }
  split; [rewrite (length_concat_const _ _ _ F), map_length, seq_length; reflexivity|]. intros k r Hk Hr. unfold vget at 1.
  
  rewrite (nth_concat_const R q _ k r 0 F) by (try assumption; now rewrite map_length, seq_length).
  rewrite nth_comp by assumption. now rewrite nth_comp.
Qed.

(** For every x there is exactly one decision vector x' that differs from x in the derivative variables only and satisfies the state equations.
    The condensed constraints at x are the continuity constraints at x' followed by the other rows of the algebra at x', stage by stage; so they vanish
    exactly when x' satisfies both full blocks. *)
Theorem C29_equivalence : forall roots tn tns n st inp con pts fixed o alg nimp x, built roots tn tns n st inp con pts fixed o -> explicit_algebra o alg nimp ->
  List.length x = num_dec (oc_op o) ->
  exists x' cs rs,
    same_but_dots o x x' /\
    (forall k c, (k < num_stages (oc_op o))%nat -> (c < List.length st)%nat -> vget (k * nimp + c) (con_constraints alg x') = 0) /\
    (forall y, same_but_dots o x y -> (forall k c, (k < num_stages (oc_op o))%nat -> (c < List.length st)%nat -> vget (k * nimp + c) (con_constraints alg y) = 0) -> y = x') /\
    continuity_constraints o x' = Ok cs /\
    List.length rs = (num_stages (oc_op o) * (nimp - List.length st))%nat /\
    (forall k r, (k < num_stages (oc_op o))%nat -> (r < nimp - List.length st)%nat -> vget (k * (nimp - List.length st) + r) rs = vget (k * nimp + (List.length st + r)) (con_constraints alg x')) /\
    condensed_constraints o alg x = Ok (cs ++ rs) /\
    (Forall (fun v => v = 0) (cs ++ rs) <-> Forall (fun v => v = 0) cs /\ Forall (fun v => v = 0) (con_constraints alg x')).
Proof.
  intros roots tn tns n st inp con pts fixed o alg nimp x Hb EA L.
  destruct (built_ok _ _ _ _ _ _ _ _ _ _ Hb) as (K & Hn & Hd & En & Ed & _).
  pose proof (solved_len o K Hn Hd alg nimp EA x) as LS. set (x' := solved o alg nimp x) in *.
  exists x', (con_list o x'), (restl o alg nimp x'). rewrite <- Ed. destruct (restl_vget o K Hn Hd alg nimp x' EA) as [LR HR].
  split; [now apply solved_sbd|]. split; [intros; now apply solved_zero|]. split; [intros; now apply solved_unique|].
  split; [now apply cons_comp|]. split; [assumption|]. split; [assumption|].
  split; [rewrite (condensed_eq o K Hn Hd alg nimp EA x L); f_equal; now apply cond_solved|].
  rewrite Forall_app. split; intros [H1 H2]; (split; [assumption|]).
  - apply all_zero_vget. rewrite (ea_len _ _ _ EA) by assumption. intros i Hi. pose proof (ea_d _ _ _ EA) as Hdn.
    assert (0 < nimp)%nat by lia. assert (i = i / nimp * nimp + i mod nimp)%nat as Ei by (pose proof (Nat.div_mod i nimp ltac:(lia)); lia).
    assert (i / nimp < num_stages (oc_op o))%nat as Hk by (apply Nat.div_lt_upper_bound; lia). assert (i mod nimp < nimp)%nat as Hc by (apply Nat.mod_upper_bound; lia). rewrite Ei.
    destruct (Nat.lt_ge_cases (i mod nimp) (num_states o)) as [Hlt|Hge]; [now apply solved_zero|].
    replace (i mod nimp)%nat with (num_states o + (i mod nimp - num_states o))%nat by lia. rewrite <- HR by lia.
    apply all_zero_vget; [assumption|]. rewrite LR. nia.
  - apply all_zero_vget. rewrite LR. intros i Hi. set (q := (nimp - num_states o)%nat) in *. assert (0 < q)%nat by nia.
    assert (i = i / q * q + i mod q)%nat as Ei by (pose proof (Nat.div_mod i q ltac:(lia)); lia).
    assert (i / q < num_stages (oc_op o))%nat as Hk by (apply Nat.div_lt_upper_bound; lia). assert (i mod q < q)%nat as Hc by (apply Nat.mod_upper_bound; lia). rewrite Ei, HR by assumption.
    apply all_zero_vget; [assumption|]. rewrite (ea_len _ _ _ EA) by assumption. unfold q in *. nia.
Qed.
Print Assumptions C29_equivalence.

(** Conversely a point of the full problem: if y satisfies the state equations then the condensed constraints at any point that agrees with y up to derivative variables
    are the full ones at y; in particular feasible points of the full problem are feasible for the condensed one. *)
Theorem C29_full_to_condensed : forall roots tn tns n st inp con pts fixed o alg nimp x y cs, built roots tn tns n st inp con pts fixed o -> explicit_algebra o alg nimp ->
  List.length x = num_dec (oc_op o) -> same_but_dots o x y -> continuity_constraints o y = Ok cs -> Forall (fun v => v = 0) cs -> Forall (fun v => v = 0) (con_constraints alg y) ->
  exists v, condensed_constraints o alg x = Ok v /\ Forall (fun r => r = 0) v.
Proof.
  intros roots tn tns n st inp con pts fixed o alg nimp x y cs Hb EA L Hs EC Z1 Z2.
  destruct (C29_equivalence _ _ _ _ _ _ _ _ _ _ alg nimp x Hb EA L) as (x' & cs' & rs & S' & _ & U & EC' & _ & _ & E & I).
  assert (y = x') as ->.
  { apply U; [assumption|]. intros k c Hk Hc. pose proof (ea_d _ _ _ EA). destruct (built_ok _ _ _ _ _ _ _ _ _ _ Hb) as (K & Hn & Hd & En & Ed & _).
    apply all_zero_vget; [assumption|]. rewrite (ea_len _ _ _ EA) by (destruct Hs; congruence). nia. }
  exists (cs' ++ rs). split; [assumption|]. apply I. assert (cs' = cs) as -> by congruence. now split.
Qed.
Print Assumptions C29_full_to_condensed.

(** The chain-rule matrix is the matrix of partial derivatives of the condensed constraints, one row per condensed constraint, zero in the columns of the derivative variables. *)
Theorem C29_jacobian : forall roots tn tns n st inp con pts fixed o alg nimp fwd fmesh, built roots tn tns n st inp con pts fixed o -> explicit_algebra o alg nimp -> exact_algebra o alg ->
  (fixed = None -> forward_agrees o alg nimp fwd fmesh) ->
  exists f J,
    (forall x, List.length x = num_dec (oc_op o) -> condensed_constraints o alg x = Ok (f x) /\ List.length (f x) = num_condensed o nimp /\ big_jac o alg nimp fwd fmesh x = Ok (J x)) /\
    is_jacobian (num_dec (oc_op o)) (num_condensed o nimp) f J /\
    forall x r k c j, List.length x = num_dec (oc_op o) -> (r < num_condensed o nimp)%nat -> (k < num_stages (oc_op o))%nat -> dot_pos o k c j -> J x r j = 0.
Proof.
  intros roots tn tns n st inp con pts fixed o alg nimp fwd fmesh Hb EA XA FA.
  destruct (built_ok _ _ _ _ _ _ _ _ _ _ Hb) as (K & Hn & Hd & En & Ed & _ & _ & _ & Ef & _). pose proof (xa_jac _ _ XA) as XJ.
  exists (cond_list o alg nimp), (cjac o alg nimp). split; [|split].
  - intros x L. split; [now apply condensed_eq|]. split; [now apply cond_list_len|]. apply big_jac_eq; try assumption. rewrite Ef. exact FA.
  - now apply cjac_exact.
  - intros x r k c j L Hr Hk Hj. apply cjac_dot; try assumption. apply dot_pos_iff in Hj; [|assumption..]. destruct Hj as [Hc ->]. exists k, c. auto.
Qed.
Print Assumptions C29_jacobian.

(** The structure is the set of entries that are nonzero at one (random) point x0. The matrix given to the solver at x is the jacobian iff no entry that is nonzero at x vanishes at x0;
    at all other entries it is right anyway. *)
Theorem C29_jacobian_values : forall roots tn tns n st inp con pts fixed o alg nimp fwd fmesh x0 x, built roots tn tns n st inp con pts fixed o -> explicit_algebra o alg nimp -> exact_algebra o alg ->
  (fixed = None -> forward_agrees o alg nimp fwd fmesh) -> List.length x0 = num_dec (oc_op o) -> List.length x = num_dec (oc_op o) ->
  exists idx C J0 J rows cols vals, group_indices_in_dec (oc_op o) "states_dot" = Ok idx /\ cont_jac o x0 = Ok C /\ J0 = chainrule o alg nimp idx C (alg_jac alg x0) /\
    (fixed <> None -> big_jac o alg nimp fwd fmesh x0 = Ok J0) /\ big_jac o alg nimp fwd fmesh x = Ok J /\
    condensed_jacobianstructure o alg nimp x0 = Ok (rows, cols) /\ condensed_jacobian o alg nimp fwd fmesh (rows, cols) x = Ok vals /\
    List.length rows = List.length cols /\ List.length vals = List.length rows /\ NoDup (combine rows cols) /\
    (forall r q, In (r, q) (combine rows cols) <-> (r < num_condensed o nimp)%nat /\ (q < num_dec (oc_op o))%nat /\ J0 r q <> 0) /\
    forall r q, (r < num_condensed o nimp)%nat -> (q < num_dec (oc_op o))%nat ->
      tri rows cols vals r q = (if Req_EM_T (J0 r q) 0 then 0 else J r q).
Proof.
  intros roots tn tns n st inp con pts fixed o alg nimp fwd fmesh x0 x Hb EA XA FA L0 L.
  destruct (built_ok _ _ _ _ _ _ _ _ _ _ Hb) as (K & Hn & Hd & En & Ed & _ & _ & _ & Ef & _). pose proof (xa_jac _ _ XA) as XJ.
  set (C := tri (jacR o) (jacC o) (jacV o x0)). set (J0 := chainrule o alg nimp (dots o) C (alg_jac alg x0)).
  assert (num_continuity_cons o + List.length (kept_rows o alg nimp) = num_condensed o nimp)%nat as EN.
  { rewrite (ncc_eq o K Hn Hd alg nimp EA), (kept_len o K Hn Hd alg nimp EA). unfold num_condensed. nia. }
  exists (dots o), C, J0, (cjac o alg nimp x), (fst (nonzeros (num_condensed o nimp) (num_dec (oc_op o)) J0)), (snd (nonzeros (num_condensed o nimp) (num_dec (oc_op o)) J0)),
    (map2 (cjac o alg nimp x) (fst (nonzeros (num_condensed o nimp) (num_dec (oc_op o)) J0)) (snd (nonzeros (num_condensed o nimp) (num_dec (oc_op o)) J0))).
  assert (cont_jac o x0 = Ok C) as EC by now apply (cont_jac_eq o K Hn Hd alg nimp EA).
  assert (group_indices_in_dec (oc_op o) "states_dot" = Ok (dots o)) as EI by now apply idx_eq.
  assert (big_jac o alg nimp fwd fmesh x = Ok (cjac o alg nimp x)) as EB by (apply big_jac_eq; try assumption; rewrite Ef; exact FA).
  split; [exact EI|]. split; [exact EC|]. split; [reflexivity|].
  split. { intro Hf. unfold big_jac. rewrite EI. cbn [bind]. unfold has_scale. rewrite (oo_gn o K). destruct (oc_fixed o) eqn:EF; [|congruence]. cbn [existsb bind]. rewrite EC. reflexivity. }
  split; [exact EB|].
  split. { unfold condensed_jacobianstructure. rewrite EI. cbn [bind]. rewrite EC. cbn [bind]. rewrite EN. now rewrite <- surjective_pairing. }
  split. { unfold condensed_jacobian. rewrite EB. cbn [bind fst snd]. reflexivity. }
  assert (List.length (fst (nonzeros (num_condensed o nimp) (num_dec (oc_op o)) J0)) = List.length (snd (nonzeros (num_condensed o nimp) (num_dec (oc_op o)) J0))) as LL by (unfold nonzeros; cbn [fst snd]; now rewrite !map_length).
  split; [exact LL|]. split; [now rewrite map2_length|].
  assert (forall A B (l : list (A * B)), combine (map fst l) (map snd l) = l) as CMB by (clear; induction l as [|[u v] l IH]; simpl; congruence).
  split; [|split].
  - unfold nonzeros. cbn [fst snd]. rewrite CMB. apply NoDup_filter. clear. generalize (num_condensed o nimp) as a. generalize (num_dec (oc_op o)) as b. intros b a.
    assert (forall l, NoDup l -> NoDup (flat_map (fun q : nat => map (fun r => (r, q : nat)) (seq 0 a)) l)) as H; [|apply H, seq_NoDup].
    induction l as [|q l IH]; intro ND; [constructor|]. inversion ND as [|? ? N1 N2]; subst. cbn [flat_map]. apply NoDup_app_intro; [|now apply IH|].
    + apply FinFun.Injective_map_NoDup; [intros u v E; congruence|apply seq_NoDup].
    + intros [r q'] A1 A2. apply in_map_iff in A1. destruct A1 as (? & E & _). injection E as _ <-. apply in_flat_map in A2. destruct A2 as (q' & Hq & A2). apply in_map_iff in A2. destruct A2 as (? & E & _). congruence.
  - intros r q. unfold nonzeros. cbn [fst snd]. rewrite CMB, filter_In, in_flat_map. cbn [fst snd]. split.
    + intros [(q' & Hq & H) Hz]. apply in_map_iff in H. destruct H as (r' & E & Hr). injection E as -> ->. apply in_seq in Hq. apply in_seq in Hr. split; [lia|]. split; [lia|].
      destruct (Req_EM_T (J0 r q) 0); [discriminate|assumption].
    + intros (Hr & Hq & Hz). split; [exists q; split; [apply in_seq; lia|]; apply in_map_iff; exists r; split; [reflexivity|apply in_seq; lia]|]. destruct (Req_EM_T (J0 r q) 0); [contradiction|reflexivity].
  - intros r q Hr Hq. now apply tri_nonzeros.
Qed.
Print Assumptions C29_jacobian_values.

Lemma lagr_full : forall o, ocp_ok o -> (1 <= num_intervals o)%nat -> (1 <= num_states o)%nat -> forall lam x, (num_intervals o * ((nspi (oc_op o) - 1) * num_states o) <= List.length lam)%nat ->
  vdot (firstn (num_intervals o * ((nspi (oc_op o) - 1) * num_states o)) lam) (con_list o x) =
  sum3 (num_intervals o) (nspi (oc_op o) - 1) (num_states o) (fun i l c => vget (rowno (nspi (oc_op o) - 1) (num_states o) i l c) lam * rsum (map (fun j => mget l j (t_A (oc_tr o)) * vget (ia o i j c) x) (seq 0 (nspi (oc_op o))))) +
  scl o x * sum3 (num_intervals o) (nspi (oc_op o)) (num_states o) (fun i j c => uu o lam i j c * vget (dt o (i * (nspi (oc_op o) - 1) + j) c) x).
Proof.
  intros o K Hn Hd lam x L. set (op := oc_op o) in *. set (m := nspi op) in *. set (n := num_intervals o) in *. set (d := num_states o) in *. set (ncc := (n * ((m - 1) * d))%nat) in *.
  change (con_list o x) with (comp3 n (m - 1) d (fun i l c => Fdef o i l c x)). rewrite vdot_comp3 by (now rewrite firstn_length_le).
  change (sum3 n (m - 1) d (fun i l c => vget (rowno (m - 1) d i l c) (firstn ncc lam) * Fdef o i l c x) =
    sum3 n (m - 1) d (fun i l c => vget (rowno (m - 1) d i l c) lam * rsum (map (fun j => mget l j (t_A (oc_tr o)) * vget (ia o i j c) x) (seq 0 m))) +
    scl o x * sum3 n m d (fun i j c => uu o lam i j c * vget (dt o (i * (m - 1) + j) c) x)).
  transitivity (sum3 n (m - 1) d (fun i l c => vget (rowno (m - 1) d i l c) lam * rsum (map (fun j => mget l j (t_A (oc_tr o)) * vget (ia o i j c) x) (seq 0 m)) +
       rsum (map (fun j => scl o x * (- mget l j (t_B (oc_tr o)) * (vget (rowno (m - 1) d i l c) lam * vget i (interval_lengths (oc_mesh o))) * vget (dt o (i * (m - 1) + j) c) x)) (seq 0 m)))).
  - apply sum3_ext. intros i l c Hi Hl Hc. rewrite firstn_vget.
    2: { unfold rowno, ncc. assert ((i + 1) * ((m - 1) * d) <= n * ((m - 1) * d))%nat by (apply Nat.mul_le_mono_r; lia). assert ((l + 1) * d <= (m - 1) * d)%nat by (apply Nat.mul_le_mono_r; lia). lia. }
    unfold Fdef. fold op m. unfold Rminus. rewrite Rmult_plus_distr_l. f_equal. rewrite Ropp_mult_distr_r_reverse, Ropp_mult_distr_l. rewrite <- rsum_mult_l. apply rsum_ext. intros j _.
    change (dt o (i * (m - 1) + j) c) with (ib o i j c). ring.
  - rewrite sum3_plus. f_equal. rewrite (sum3_swap12 n (m - 1) d m (fun i l c j => scl o x * (- mget l j (t_B (oc_tr o)) * (vget (rowno (m - 1) d i l c) lam * vget i (interval_lengths (oc_mesh o))) * vget (dt o (i * (m - 1) + j) c) x))).
    rewrite <- sum3_scal. apply sum3_ext. intros i j c _ _ _. unfold uu. fold op m d. rewrite <- Rmult_assoc. rewrite (Rmult_comm (scl o x)), Rmult_assoc, Rmult_comm, <- rsum_mult_l. apply rsum_ext. intros l _. ring.
Qed.

(** The multiplier conversion preserves the lagrangian: at every y with the mesh scale of x, the condensed lagrangian is that of the full problem with the first block of the multipliers
    on the continuity constraints and the equivalent multipliers, one for each row, on the algebra - whatever the derivative variables of y are. *)
Theorem C29_multipliers : forall roots tn tns n st inp con pts fixed o alg nimp x y lam s, built roots tn tns n st inp con pts fixed o -> explicit_algebra o alg nimp -> exact_algebra o alg ->
  List.length x = num_dec (oc_op o) -> List.length y = num_dec (oc_op o) -> List.length lam = num_condensed o nimp -> scale_is o x s -> scale_is o y s ->
  exists leq lc cy c, equivalent_multipliers o x lam = Ok leq /\ List.length leq = (num_stages (oc_op o) * nimp)%nat /\ lc = firstn (num_continuity_cons o) lam /\
    continuity_constraints o y = Ok cy /\ condensed_constraints o alg y = Ok c /\
    vdot lam c = vdot lc cy + vdot leq (con_constraints alg y).
Proof.
  intros roots tn tns n st inp con pts fixed o alg nimp x y lam s Hb EA XA L Ly Ll Hsx Hsy.
  destruct (built_ok _ _ _ _ _ _ _ _ _ _ Hb) as (K & Hn & Hd & En & Ed & _ & _ & _ & Ef & _). pose proof (xa_jac _ _ XA) as XJ.
  destruct (mults_ok o K Hn Hd alg nimp EA x lam L Ll) as (leq & E & LL & P).
  exists leq, (firstn (num_continuity_cons o) lam), (con_list o y), (cond_list o alg nimp y).
  split; [assumption|]. split; [assumption|]. split; [reflexivity|]. split; [now apply cons_comp|]. split; [now apply condensed_eq|].
  assert (scl o y = scl o x) as ES.
  { pose proof (scale_ok o K Hn Hd x L) as S1. pose proof (scale_ok o K Hn Hd y Ly) as S2. unfold get_mesh_scale, scale_is in *. destruct (oc_fixed o); congruence. }
  rewrite P by now apply (ea_len _ _ _ EA). rewrite (lagr_split o K Hn Hd alg nimp EA) by assumption.
  rewrite (ncc_eq o K Hn Hd alg nimp EA). rewrite (lagr_full o K Hn Hd lam y).
  2: { rewrite Ll. unfold num_condensed. rewrite <- Nat.mul_assoc. apply Nat.le_add_r. }
  unfold pairing. rewrite <- ES. rewrite Rplus_assoc. rewrite (Rplus_assoc (sum3 _ _ _ _) (scl o y * _)). f_equal. rewrite <- Rplus_assoc, <- Rmult_plus_distr_l. f_equal. f_equal. rewrite <- sum3_plus.
  apply sum3_ext. intros i j c _ _ _. unfold Fv. ring.
Qed.
Print Assumptions C29_multipliers.

(** The condensed hessian. On a fixed mesh it is the hessian of the lagrangian of the condensed constraints, for all multipliers. With the mesh scale as a variable (the last one) structure and values
    describe the upper triangle, except possibly the entry (scale, scale); that one is right when the algebra does not depend on the mesh scale. *)
Theorem C29_hessian : forall roots tn tns n st inp con pts fixed o alg nimp, built roots tn tns n st inp con pts fixed o -> explicit_algebra o alg nimp -> exact_algebra o alg ->
  exists f, (forall x, List.length x = num_dec (oc_op o) -> condensed_constraints o alg x = Ok (f x)) /\
  forall lam, List.length lam = num_condensed o nimp ->
    exists H, (forall x, List.length x = num_dec (oc_op o) -> exists v, condensed_hessian o alg nimp x lam = Ok v /\
        List.length (fst (condensed_hessianstructure o alg)) = List.length (snd (condensed_hessianstructure o alg)) /\ List.length v = List.length (fst (condensed_hessianstructure o alg)) /\
        H x = tri (fst (condensed_hessianstructure o alg)) (snd (condensed_hessianstructure o alg)) v) /\
      (fixed <> None -> is_hessian (num_dec (oc_op o)) (fun x => vdot lam (f x)) H) /\
      (fixed = None -> is_hessian_on (fun p q => (p <= q)%nat /\ (p <> (num_dec (oc_op o) - 1)%nat \/ mesh_free o alg)) (num_dec (oc_op o)) (fun x => vdot lam (f x)) H).
Proof.
  intros roots tn tns n st inp con pts fixed o alg nimp Hb EA XA.
  destruct (built_ok _ _ _ _ _ _ _ _ _ _ Hb) as (K & Hn & Hd & En & Ed & _ & _ & _ & Ef & _).
  exists (cond_list o alg nimp). split; [intros; now apply condensed_eq|]. intros lam L.
  set (H := fun x => tri (fst (condensed_hessianstructure o alg)) (snd (condensed_hessianstructure o alg)) (match condensed_hessian o alg nimp x lam with Ok v => v | Raise _ => [] end)).
  assert (forall x, List.length x = num_dec (oc_op o) -> exists v, condensed_hessian o alg nimp x lam = Ok v /\
        List.length (fst (condensed_hessianstructure o alg)) = List.length (snd (condensed_hessianstructure o alg)) /\ List.length v = List.length (fst (condensed_hessianstructure o alg)) /\
        H x = tri (fst (condensed_hessianstructure o alg)) (snd (condensed_hessianstructure o alg)) v) as HV.
  { intros x Lx. destruct (cond_hess_vals o K Hn Hd alg nimp EA XA x lam Lx L) as (leq & v & _ & E & L1 & L2 & _). exists v. split; [assumption|]. split; [assumption|]. split; [assumption|]. unfold H. now rewrite E. }
  exists H. split; [exact HV|].
  destruct (cond_hess_exact o K Hn Hd alg nimp EA XA lam H L) as [H1 H2].
  { intros x Lx. destruct (HV x Lx) as (v & E & _ & _ & E2). eauto. }
  rewrite Ef in H1, H2. split; [|exact H2]. intro Hf. destruct fixed as [s|]; [|congruence]. now apply (H1 s).
Qed.
Print Assumptions C29_hessian.
