(** Property theorems C13-C19 (scaling, composite problem, scaled solve, linear constraints). *)
From Verif Require Import Base RBase TreeModel NlpModel NlpSpec NlpProofs NlpProofs2.

(** A concrete constraint used by the examples: g(x) = [x0*x1; x0 + 3 x1] *)
Definition ex_f (x : list R) : list R := [vget 0 x * vget 1 x; vget 0 x + 3 * vget 1 x].
Definition ex_j (x : list R) : list R := [vget 1 x; vget 0 x; 1; 3].
Definition ex_h (x lam : list R) : list R := [vget 0 lam; vget 0 lam].
Definition ex_con : bcon := rescaled {| c_nin := 2; c_ncon := 2; c_f := ex_f; c_j := ex_j; c_h := ex_h;
  c_jr := [0;0;1;1]%nat; c_jc := [0;1;0;1]%nat; c_hr := [0;1]%nat; c_hc := [1;0]%nat;
  c_in := []; c_con := []; c_js := []; c_hs := [] |} (ones 2) (ones 2).

Ltac forall_lt := repeat (apply Forall_cons; [lia|]); apply Forall_nil.
Lemma ex_con_wf : con_wf ex_con.
Proof. constructor; simpl; try reflexivity; try forall_lt. Qed.
Lemma ex_con_made : make_con 2 2 ex_f ex_j ex_h None (Some ([0;1], [1;0])%nat) = Ok ex_con.
Proof. unfold make_con, ex_con, rescaled, update_jac_scales, update_hess_scales; simpl; unfold with_hs, with_js, vdiv; simpl. reflexivity. Qed.

(** *** C13 *)
(** Any two histories that end with the same scales leave indistinguishable objects; and the
    values are those of the raw callables at x*scale, divided by the last constraint scales. *)
Theorem C13_history : forall nin ncon f j h js hs c0 ops,
  make_con nin ncon f j h js hs = Ok c0 -> con_wf c0 -> Forall (sop_ok nin ncon) ops ->
  let si := last_in (ones nin) ops in let sc := last_con (ones ncon) ops in
  Forall (fun v => v <> 0) si -> Forall (fun v => v <> 0) sc ->
  exists c, foldM apply_sop ops c0 = Ok c /\
    c_jr c = c_jr c0 /\ c_jc c = c_jc c0 /\ c_hr c = c_hr c0 /\ c_hc c = c_hc c0 /\
    (forall x i, List.length x = nin -> (i < ncon)%nat ->
       vget i (con_constraints c x) = vget i (f (vmul x si)) / vget i sc) /\
    (forall x a b, List.length x = nin ->
       tri (c_jr c) (c_jc c) (con_jacobian c x) a b = tri (c_jr c) (c_jc c) (j (vmul x si)) a b * (vget b si / vget a sc)) /\
    (forall x lam a b, List.length x = nin -> List.length lam = ncon ->
       tri (c_hr c) (c_hc c) (con_hessian c x lam) a b =
       tri (c_hr c) (c_hc c) (h (vmul x si) (vdiv lam sc)) a b * (vget a si * vget b si)).
Proof.
  intros nin ncon f j h js hs c0 ops Hm W Hops si sc Ni Nc.
  destruct (make_con_ok _ _ _ _ _ _ _ _ Hm W) as (E & E1 & E2 & E3 & E4 & E5).
  assert (List.length (ones nin) = c_nin c0) as L1 by (rewrite E1; apply repeat_length).
  assert (List.length (ones ncon) = c_ncon c0) as L2 by (rewrite E2; apply repeat_length).
  rewrite <- E1, <- E2 in Hops.
  destruct (run_sops ops c0 (ones nin) (ones ncon) W L1 L2 Hops) as (R1 & R2 & R3). rewrite <- E in R1.
  exists (rescaled c0 si sc). split; [exact R1|]. split; [reflexivity|]. split; [reflexivity|]. split; [reflexivity|]. split; [reflexivity|].
  cbn [rescaled c_jr c_jc c_hr c_hc]. fold (rescaled c0 si sc). rewrite <- E3, <- E4, <- E5. split; [|split].
  - intros x i Hx Hi. apply resc_constraints; auto; congruence.
  - intros x a b Hx. apply resc_jacobian; auto; congruence.
  - intros x lam a b Hx Hl. apply resc_hessian; auto; congruence.
Qed.
Print Assumptions C13_history.

Theorem C13_history_independent : forall nin ncon f j h js hs c0 ops1 ops2,
  make_con nin ncon f j h js hs = Ok c0 -> con_wf c0 -> Forall (sop_ok nin ncon) ops1 -> Forall (sop_ok nin ncon) ops2 ->
  last_in (ones nin) ops1 = last_in (ones nin) ops2 -> last_con (ones ncon) ops1 = last_con (ones ncon) ops2 ->
  foldM apply_sop ops1 c0 = foldM apply_sop ops2 c0.
Proof.
  intros nin ncon f j h js hs c0 ops1 ops2 Hm W H1 H2 E1 E2.
  destruct (make_con_ok _ _ _ _ _ _ _ _ Hm W) as (E & N1 & N2 & _).
  assert (List.length (ones nin) = c_nin c0) as L1 by (rewrite N1; apply repeat_length).
  assert (List.length (ones ncon) = c_ncon c0) as L2 by (rewrite N2; apply repeat_length).
  rewrite <- N1, <- N2 in H1, H2. rewrite E.
  destruct (run_sops ops1 c0 (ones nin) (ones ncon) W L1 L2 H1) as (-> & _).
  destruct (run_sops ops2 c0 (ones nin) (ones ncon) W L1 L2 H2) as (-> & _). now rewrite E1, E2.
Qed.
Print Assumptions C13_history_independent.

(** Finding: scales are stored by reference and the derived jacobian scales are only refreshed by the
    setters; changing the array in place afterwards ([with_in]) leaves a wrong jacobian. *)
Theorem C13_inplace_scale_refuted : exists c s, con_wf c /\ List.length s = c_nin c /\
  is_jacobian (c_nin c) (c_ncon c) (con_constraints c) (fun x => tri (c_jr c) (c_jc c) (con_jacobian c x)) /\
  ~ is_jacobian (c_nin c) (c_ncon c) (con_constraints (with_in c s))
      (fun x => tri (c_jr c) (c_jc c) (con_jacobian (with_in c s) x)).
Proof.
  set (c := rescaled {| c_nin := 1; c_ncon := 1; c_f := fun x => [vget 0 x]; c_j := fun _ => [1]; c_h := fun _ _ => [];
     c_jr := [0%nat]; c_jc := [0%nat]; c_hr := []; c_hc := []; c_in := []; c_con := []; c_js := []; c_hs := [] |} [1] [1]).
  exists c, [2]. split; [constructor; simpl; try reflexivity; try forall_lt|]. split; [reflexivity|].
  assert (forall x i j, List.length x = 1%nat -> (i < 1)%nat -> (j < 1)%nat -> forall s,
     pderiv (fun y => vget i (con_constraints (with_in c [s]) y)) x j s) as D.
  { intros x i j Hx Hi Hj s. assert (i = 0)%nat as -> by lia. assert (j = 0)%nat as -> by lia.
    destruct x as [|a [|? ?]]; try discriminate. unfold pderiv. simpl. unfold con_constraints. simpl. unfold vdiv, vget; simpl.
    apply dlim_ext with (f := fun t => s * t + 0); [intro; field|]. apply dlim_lin. }
  split.
  - intros x i j Hx Hi Hj. specialize (D x i j Hx Hi Hj 1).
    assert (i = 0)%nat as -> by (simpl in Hi; lia). assert (j = 0)%nat as -> by (simpl in Hj; lia).
    eapply pderiv_eq; [|exact D]. unfold con_jacobian. simpl. unfold vdiv, vget; simpl. field.
  - intro H. specialize (H [5] 0%nat 0%nat eq_refl ltac:(simpl; lia) ltac:(simpl; lia)).
    specialize (D [5] 0%nat 0%nat eq_refl ltac:(lia) ltac:(lia) 2).
    pose proof (pderiv_unique _ _ _ _ _ H D) as E. unfold con_jacobian in E. simpl in E. unfold vdiv, vget in E; simpl in E. lra.
Qed.
Print Assumptions C13_inplace_scale_refuted.

Example C13_nonvacuous : make_con 2 2 ex_f ex_j ex_h None (Some ([0;1], [1;0])%nat) = Ok ex_con /\ con_wf ex_con /\
  Forall (sop_ok 2 2) [SIn [2; 5]; SCon [7; 8]; SIn [3; 4]] /\
  last_in (ones 2) [SIn [2; 5]; SCon [7; 8]; SIn [3; 4]] = [3; 4] /\ last_con (ones 2) [SIn [2; 5]; SCon [7; 8]; SIn [3; 4]] = [7; 8].
Proof. split; [exact ex_con_made|]. split; [exact ex_con_wf|]. repeat split; repeat constructor. Qed.

(** *** C14 *)
Theorem C14_scaled_jacobian : forall nin ncon f j h js hs c0 ops c,
  make_con nin ncon f j h js hs = Ok c0 -> con_wf c0 -> Forall (sop_ok nin ncon) ops ->
  foldM apply_sop ops c0 = Ok c ->
  Forall (fun v => v <> 0) (last_in (ones nin) ops) -> Forall (fun v => v <> 0) (last_con (ones ncon) ops) ->
  is_jacobian nin ncon f (fun x => tri (c_jr c0) (c_jc c0) (j x)) ->
  is_jacobian nin ncon (con_constraints c) (fun x => tri (c_jr c) (c_jc c) (con_jacobian c x)).
Proof.
  intros nin ncon f j h js hs c0 ops c Hm W Hops Hrun Ni Nc D.
  destruct (make_con_ok _ _ _ _ _ _ _ _ Hm W) as (E & E1 & E2 & E3 & E4 & E5).
  assert (List.length (ones nin) = c_nin c0) as L1 by (rewrite E1; apply repeat_length).
  assert (List.length (ones ncon) = c_ncon c0) as L2 by (rewrite E2; apply repeat_length).
  rewrite <- E1, <- E2 in Hops.
  destruct (run_sops ops c0 (ones nin) (ones ncon) W L1 L2 Hops) as (R1 & R2 & R3). rewrite <- E, Hrun in R1. inversion R1; subst c.
  rewrite <- E1, <- E2, <- E3, <- E4 in *. apply (resc_is_jacobian c0); auto.
Qed.
Print Assumptions C14_scaled_jacobian.

(** for the hessian: on every set [P] of positions (all of them, or the upper triangle) *)
Theorem C14_scaled_hessian : forall (P : nat -> nat -> Prop) nin ncon f j h js hs c0 ops c lam,
  make_con nin ncon f j h js hs = Ok c0 -> con_wf c0 -> Forall (sop_ok nin ncon) ops ->
  foldM apply_sop ops c0 = Ok c ->
  Forall (fun v => v <> 0) (last_in (ones nin) ops) -> List.length lam = ncon ->
  (forall l, List.length l = ncon ->
     is_hessian_on P nin (fun x => vdot l (f x)) (fun x => tri (c_hr c0) (c_hc c0) (h x l))) ->
  is_hessian_on P nin (fun x => vdot lam (con_constraints c x)) (fun x => tri (c_hr c) (c_hc c) (con_hessian c x lam)).
Proof.
  intros P nin ncon f j h js hs c0 ops c lam Hm W Hops Hrun Ni Hl D.
  destruct (make_con_ok _ _ _ _ _ _ _ _ Hm W) as (E & E1 & E2 & E3 & E4 & E5).
  assert (List.length (ones nin) = c_nin c0) as L1 by (rewrite E1; apply repeat_length).
  assert (List.length (ones ncon) = c_ncon c0) as L2 by (rewrite E2; apply repeat_length).
  rewrite <- E1, <- E2 in Hops.
  destruct (run_sops ops c0 (ones nin) (ones ncon) W L1 L2 Hops) as (R1 & R2 & R3). rewrite <- E, Hrun in R1. inversion R1; subst c.
  rewrite <- E1, <- E2, <- E3, <- E5 in *. apply (resc_is_hessian c0); auto.
Qed.
Print Assumptions C14_scaled_hessian.

Theorem C14_scaled_objective : forall (P : nat -> nat -> Prop) n o s o', obj_wf n o -> List.length s = n -> Forall (fun v => v <> 0) s ->
  obj_set_input_scales o s = Ok o' ->
  (is_gradient n (o_f o) (fun x i => vget i (o_g o x)) ->
   is_gradient n (obj_objective o') (fun x i => vget i (obj_gradient o' x))) /\
  (is_hessian_on P n (o_f o) (fun x => tri (o_hr o) (o_hc o) (o_h o x)) ->
   is_hessian_on P n (obj_objective o') (fun x => tri (o_hr o') (o_hc o') (obj_hessian o' x))) /\
  (forall x, List.length x = n -> obj_objective o' x = o_f o (vmul x s)).
Proof.
  intros P n o s o' W Hs Ns H. rewrite (obj_set_ok n) in H by assumption. inversion H; subst o'.
  split; [|split].
  - intro D; exact (obj_is_gradient n o s W Hs D).
  - intro D; exact (obj_is_hessian P n o s W Hs Ns D).
  - reflexivity.
Qed.
Print Assumptions C14_scaled_objective.

(** The example constraint does satisfy the derivative hypotheses of C14. *)
Example C14_nonvacuous : is_jacobian 2 2 ex_f (fun x => tri (c_jr ex_con) (c_jc ex_con) (ex_j x)) /\
  (forall l, List.length l = 2%nat ->
    is_hessian_on (fun _ _ => True) 2 (fun x => vdot l (ex_f x)) (fun x => tri (c_hr ex_con) (c_hc ex_con) (ex_h x l))).
Proof.
  assert (forall x j, List.length x = 2%nat -> (j < 2)%nat -> forall i, pderiv (vget i) x j (if Nat.eqb i j then 1 else 0)) as C.
  { intros x j Hx Hj i. apply pderiv_coord. lia. }
  split.
  - intros x i j Hx Hi Hj. destruct i as [|[|i]]; [| |lia].
    + eapply pderiv_eq; [|apply (pderiv_mult (vget 0) (vget 1)); apply C; assumption].
      destruct j as [|[|j]]; [| |lia]; simpl; lra.
    + eapply pderiv_eq; [|apply (pderiv_plus (vget 0) (fun y => 3 * vget 1 y)); [apply C; assumption|apply pderiv_scal, C; assumption]].
      destruct j as [|[|j]]; [| |lia]; simpl; lra.
  - intros l Hl. destruct l as [|a [|b [|? ?]]]; try discriminate.
    exists (fun x j => match j with O => a * vget 1 x + b | _ => a * vget 0 x + 3 * b end). split.
    + intros x j Hx Hj. unfold ex_f, vdot, vmul. simpl.
      apply pderiv_ext with (f := fun y => a * (vget 0 y * vget 1 y) + b * (vget 0 y + 3 * vget 1 y)); [intro; ring|].
      eapply pderiv_eq; [|apply (pderiv_plus (fun y => a * (vget 0 y * vget 1 y)));
        [apply pderiv_scal, (pderiv_mult (vget 0) (vget 1)); apply C; assumption
        |apply pderiv_scal, (pderiv_plus (vget 0) (fun y => 3 * vget 1 y)); [apply C; assumption|apply pderiv_scal, C; assumption]]].
      destruct j as [|[|j]]; [| |lia]; simpl; ring.
    + intros x j k Hx Hj Hk _. destruct j as [|[|j]]; [| |lia].
      * eapply pderiv_eq; [|apply (pderiv_plus (fun y => a * vget 1 y) (fun _ => b)); [apply pderiv_scal, C; assumption | apply pderiv_const]].
        destruct k as [|[|k]]; [| |lia]; simpl; unfold vget; simpl; ring.
      * eapply pderiv_eq; [|apply (pderiv_plus (fun y => a * vget 0 y) (fun _ => 3 * b)); [apply pderiv_scal, C; assumption | apply pderiv_const]].
        destruct k as [|[|k]]; [| |lia]; simpl; unfold vget; simpl; ring.
Qed.

(** *** C15 *)
(** [reachable n p]: p arises from a new problem by any sequence of API calls, failing ones included *)
Definition reachable (n : nat) (p : prob) : Prop :=
  exists ops, Forall (pop_ok n) ops /\ p = prun (make_prob n) ops.

Lemma reachable_inv : forall n p, reachable n p -> prob_inv p /\ p_n p = n.
Proof. intros n p (ops & H & ->). destruct (prun_inv ops (make_prob n) (make_prob_inv n) H). auto. Qed.

Lemma piece_lens : forall c s x, con_wf c -> List.length s = c_nin c -> List.length (c_con c) = c_ncon c ->
  c = rescaled c s (c_con c) -> List.length x = c_nin c ->
  List.length (con_constraints c x) = c_ncon c /\ List.length (con_jacobian c x) = List.length (c_jr c).
Proof.
  intros c s x W Hs Hc E Hx. pose proof (resc_constraints_len c s (c_con c) W Hs Hc x Hx) as A.
  pose proof (resc_jacobian_len c s (c_con c) W Hs Hc x Hx) as B. rewrite <- E in A, B. auto.
Qed.

Theorem C15_names_unique : forall n p, reachable n p ->
  NoDup (keys (p_cons p)) /\ NoDup (keys (p_objs p)) /\ p_n p = n /\
  Forall (fun kc => c_nin (snd kc) = n /\ c_in (snd kc) = p_scales p) (p_cons p).
Proof.
  intros n p H. destruct (reachable_inv n p H) as [I E]. split; [apply I|]. split; [apply I|]. split; [assumption|].
  eapply Forall_impl; [|apply I]. intros [k c] (_ & Hn & Ec). simpl in *. split; [congruence|]. now rewrite Ec.
Qed.
Print Assumptions C15_names_unique.

Theorem C15_add_constraints : forall n p name c, reachable n p -> con_arg c ->
  (In name (keys (p_cons p)) -> add_constraints p name c = Raise ValueError) /\
  (c_nin c <> n -> add_constraints p name c = Raise ValueError) /\
  (~ In name (keys (p_cons p)) -> c_nin c = n -> exists p' c',
     add_constraints p name c = Ok p' /\ p_cons p' = p_cons p ++ [(name, c')] /\
     p_objs p' = p_objs p /\ p_scales p' = p_scales p /\ num_con p' = (num_con p + c_ncon c)%nat /\
     c_f c' = c_f c /\ c_in c' = p_scales p /\ c_con c' = c_con c).
Proof.
  intros n p name c H A. destruct (reachable_inv n p H) as [I E].
  destruct (add_constraints_spec p name c I A) as [H1 H2]. split; [|split].
  - intro Hin. apply H1. auto.
  - intro Hn. apply H1. right. congruence.
  - intros Hn He. rewrite H2 by congruence. eexists; eexists. split; [reflexivity|]. simpl. repeat split.
    unfold num_con. simpl. unfold values. rewrite !map_app, list_sum_app. simpl. lia.
Qed.
Print Assumptions C15_add_constraints.

Theorem C15_add_objective : forall n p name o, reachable n p -> obj_wf n o ->
  (In name (keys (p_objs p)) -> add_objective p name o = Raise NameError) /\
  (~ In name (keys (p_objs p)) -> exists p' o',
     add_objective p name o = Ok p' /\ p_objs p' = p_objs p ++ [(name, o')] /\
     p_cons p' = p_cons p /\ num_con p' = num_con p /\ o_f o' = o_f o /\ o_in o' = p_scales p).
Proof.
  intros n p name o H A. destruct (reachable_inv n p H) as [I E]. rewrite <- E in A.
  destruct (add_objective_spec p name o I A) as [H1 H2]. split; [exact H1|].
  intros Hn. rewrite H2 by assumption. eexists; eexists. split; [reflexivity|]. simpl. repeat split.
Qed.
Print Assumptions C15_add_objective.

Lemma ddel_remove : forall V name (d : dict V), NoDup (keys d) -> ddel name d = filter (fun kv => negb (String.eqb name (fst kv))) d.
Proof.
  intros V name d; induction d as [|[k v] r IH]; simpl; intro H; [reflexivity|]. inversion H; subst.
  destruct (String.eqb_spec name k) as [->|Hne]; simpl; [|now rewrite IH].
  clear -H2. induction r as [|[k' v'] r IH]; simpl in *; [reflexivity|].
  destruct (String.eqb_spec k k'); simpl; [exfalso; apply H2; auto|]. f_equal. apply IH. tauto.
Qed.

Theorem C15_delete : forall n p name, reachable n p ->
  (~ In name (keys (p_cons p)) -> delete_constraints p name = Raise KeyError) /\
  (In name (keys (p_cons p)) -> exists p', delete_constraints p name = Ok p' /\
     p_cons p' = filter (fun kv => negb (String.eqb name (fst kv))) (p_cons p) /\ p_objs p' = p_objs p /\ p_scales p' = p_scales p) /\
  (~ In name (keys (p_objs p)) -> delete_objective p name = Raise KeyError) /\
  (In name (keys (p_objs p)) -> exists p', delete_objective p name = Ok p' /\
     p_objs p' = filter (fun kv => negb (String.eqb name (fst kv))) (p_objs p) /\ p_cons p' = p_cons p /\ p_scales p' = p_scales p).
Proof.
  intros n p name H. destruct (reachable_inv n p H) as [I E]. unfold delete_constraints, delete_objective.
  split; [|split; [|split]]; intro Hn.
  - apply dmem_false in Hn. now rewrite Hn.
  - apply dmem_true in Hn. rewrite Hn. eexists; split; [reflexivity|]. simpl. rewrite ddel_remove by apply I. auto.
  - apply dmem_false in Hn. now rewrite Hn.
  - apply dmem_true in Hn. rewrite Hn. eexists; split; [reflexivity|]. simpl. rewrite ddel_remove by apply I. auto.
Qed.
Print Assumptions C15_delete.

(** The problem's constraint count is what the callbacks return. *)
Theorem C15_counts : forall n p x, reachable n p -> p_cons p <> [] -> List.length x = n ->
  exists g js rc, prob_constraints p x = Ok g /\ List.length g = num_con p /\
    prob_jacobian p x = Ok js /\ prob_jacobianstructure p = Ok rc /\
    List.length js = List.length (fst rc) /\ List.length js = List.length (snd rc) /\
    List.length js = list_sum (map (fun c => List.length (c_jr c)) (values (p_cons p))).
Proof.
  intros n p x H Hne Hx. destruct (reachable_inv n p H) as [I E].
  assert (values (p_cons p) <> []) as Hv by (unfold values; destruct (p_cons p); simpl; congruence).
  assert (forall c, In c (values (p_cons p)) -> List.length (con_constraints c x) = c_ncon c /\
     List.length (con_jacobian c x) = List.length (c_jr c) /\ List.length (c_jr c) = List.length (c_jc c)) as L.
  { intros c Hc. apply in_map_iff in Hc. destruct Hc as ([k c'] & Ek & Hin). simpl in Ek. subst c'.
    pose proof (pi_c p I) as F. rewrite Forall_forall in F. destruct (F _ Hin) as ([W Hl] & Hn & Ec). simpl in *.
    pose proof (pi_s p I). destruct (piece_lens c (p_scales p) x W ltac:(congruence) Hl Ec ltac:(congruence)) as [A B].
    split; [exact A|]. split; [exact B|]. apply W. }
  unfold prob_constraints, prob_jacobian, prob_jacobianstructure.
  rewrite !hstackl_ne; try (intro C; apply Hv; eapply map_eq_nil; exact C).
  2:{ destruct (values (p_cons p)); [congruence | discriminate]. }
  eexists; eexists; eexists. split; [reflexivity|]. unfold num_con.
  assert (forall o cs, List.length (concat (jac_rows_from o cs)) = list_sum (map (fun c => List.length (c_jr c)) cs)) as Lr.
  { intros o cs; revert o; induction cs as [|c r IH]; intro o; simpl; [reflexivity|]. now rewrite app_length, map_length, IH. }
  assert (forall A (f : bcon -> list A) (g : bcon -> nat) cs, (forall c, In c cs -> List.length (f c) = g c) ->
    List.length (concat (map f cs)) = list_sum (map g cs)) as Lc.
  { intros A f g cs; induction cs as [|c r IH]; intro Hc; simpl; [reflexivity|]. rewrite app_length, IH by (intros; apply Hc; simpl; auto).
    now rewrite Hc by (simpl; auto). }
  split; [apply Lc; intros; now apply L|]. split; [reflexivity|]. split; [reflexivity|]. cbn [fst snd].
  rewrite Lr. rewrite (Lc _ _ (fun c => List.length (c_jr c))) by (intros; now apply L).
  rewrite (Lc _ c_jc (fun c => List.length (c_jr c))) by (intros c Hc; symmetry; now apply L). auto.
Qed.
Print Assumptions C15_counts.

(** Finding: objectives are not checked for their number of inputs. *)
Theorem C15_objective_size_unchecked_refuted : exists o p', o_nin o = 5%nat /\
  add_objective (make_prob 2) "o" o = Ok p' /\ In "o" (keys (p_objs p')).
Proof.
  exists {| o_nin := 5; o_f := fun _ => 0; o_g := fun _ => zeros 5; o_h := fun _ => []; o_hr := []; o_hc := []; o_in := ones 5; o_hs := [] |}.
  eexists. split; [reflexivity|]. split; [reflexivity|]. simpl. auto.
Qed.

Definition ex_obj : bobj := orescaled {| o_nin := 2; o_f := fun x => vget 0 x; o_g := fun _ => [1; 0]; o_h := fun _ => [0];
  o_hr := [0%nat]; o_hc := [0%nat]; o_in := []; o_hs := [] |} (ones 2).
Lemma ex_obj_wf : obj_wf 2 ex_obj.
Proof. constructor; simpl; try reflexivity; try forall_lt. Qed.
Definition ex_ops : list pop := [PAddC "a" ex_con; PScales [2;3]; PAddO "o" ex_obj; PAddC "b" ex_con; PAddC "a" ex_con].
Example C15_nonvacuous : Forall (pop_ok 2) ex_ops /\ reachable 2 (prun (make_prob 2) ex_ops) /\
  keys (p_cons (prun (make_prob 2) ex_ops)) = ["a"; "b"] /\ keys (p_objs (prun (make_prob 2) ex_ops)) = ["o"] /\
  num_con (prun (make_prob 2) ex_ops) = 4%nat.
Proof.
  assert (Forall (pop_ok 2) ex_ops) as H.
  { repeat constructor; simpl; try (split; [exact ex_con_wf | reflexivity]); try exact ex_obj_wf;
      try exact (wf_j _ ex_con_wf); try apply ex_con_wf; try apply ex_obj_wf. }
  split; [exact H|]. split; [exists ex_ops; auto|]. repeat split.
Qed.

(** *** C16 *)
Theorem C16_constraints_concat : forall n p x, reachable n p -> p_cons p <> [] -> List.length x = n ->
  prob_constraints p x = Ok (concat (map (fun c => con_constraints c x) (values (p_cons p)))) /\
  split_constraints p (concat (map (fun c => con_constraints c x) (values (p_cons p)))) =
    map (fun kc => (fst kc, con_constraints (snd kc) x)) (p_cons p).
Proof.
  intros n p x H Hne Hx. destruct (reachable_inv n p H) as [I E].
  assert (values (p_cons p) <> []) as Hv by (unfold values; destruct (p_cons p); simpl; congruence).
  split; [apply hstackl_ne; intro C; apply Hv; eapply map_eq_nil; exact C|].
  assert (forall kc, In kc (p_cons p) -> List.length (con_constraints (snd kc) x) = c_ncon (snd kc)) as L.
  { intros [k c] Hin. pose proof (pi_c p I) as F. rewrite Forall_forall in F. destruct (F _ Hin) as ([W Hl] & Hn & Ec). simpl in *.
    pose proof (pi_s p I). apply (piece_lens c (p_scales p) x W ltac:(congruence) Hl Ec ltac:(congruence)). }
  unfold split_constraints.
  assert (map c_ncon (values (p_cons p)) = map (@List.length R) (map (fun c => con_constraints c x) (values (p_cons p)))) as ->.
  { unfold values. rewrite !map_map. apply map_ext_in. intros kc Hin. symmetry. now apply L. }
  rewrite split_sizes_concat by (intro C; apply Hv; eapply map_eq_nil; exact C).
  rewrite dict_of_list_nodup.
  - unfold keys, values. rewrite map_map. clear. induction (p_cons p) as [|[k c] r IH]; simpl; [reflexivity|]. now f_equal.
  - rewrite map_fst_combine; [apply I|]. unfold keys, values. now rewrite !map_length.
Qed.
Print Assumptions C16_constraints_concat.

(** Row (rows of the earlier pieces + i) of the composite jacobian is row i of piece k. *)
Theorem C16_jacobian_stack : forall n p x, reachable n p -> p_cons p <> [] -> List.length x = n ->
  exists rs cs js, prob_jacobianstructure p = Ok (rs, cs) /\ prob_jacobian p x = Ok js /\
    (forall k c i j, nth_error (values (p_cons p)) k = Some c -> (i < c_ncon c)%nat ->
       tri rs cs js (list_sum (map c_ncon (firstn k (values (p_cons p)))) + i) j = tri (c_jr c) (c_jc c) (con_jacobian c x) i j) /\
    (Forall (fun r => (r < num_con p)%nat) rs /\ Forall (fun c => (c < n)%nat) cs).
Proof.
  intros n p x H Hne Hx. destruct (reachable_inv n p H) as [I E].
  assert (values (p_cons p) <> []) as Hv by (unfold values; destruct (p_cons p); simpl; congruence).
  assert (forall c, In c (values (p_cons p)) -> con_wf c /\ c_nin c = n /\ List.length (con_jacobian c x) = List.length (c_jr c)) as L.
  { intros c Hc. apply in_map_iff in Hc. destruct Hc as ([k c'] & Ek & Hin). simpl in Ek. subst c'.
    pose proof (pi_c p I) as F. rewrite Forall_forall in F. destruct (F _ Hin) as ([W Hl] & Hn & Ec). simpl in *.
    pose proof (pi_s p I). split; [assumption|]. split; [congruence|]. apply (piece_lens c (p_scales p) x W ltac:(congruence) Hl Ec ltac:(congruence)). }
  unfold prob_jacobian, prob_jacobianstructure.
  rewrite !hstackl_ne; try (intro C; apply Hv; eapply map_eq_nil; exact C).
  2:{ destruct (values (p_cons p)); [congruence | discriminate]. }
  eexists; eexists; eexists. split; [reflexivity|]. split; [reflexivity|]. split.
  - intros k c i j Hk Hi. apply (jac_stack (fun c => con_jacobian c x) (values (p_cons p)) 0 k c i j).
    + apply Forall_forall. intros c' Hc'. destruct (L c' Hc') as (W & _ & Lj). split; [apply W|]. split; [exact Lj | apply W].
    + exact Hk.
    + exact Hi.
  - split.
    + unfold num_con. assert (forall o cs, (forall c, In c cs -> con_wf c) -> Forall (fun r => (r < o + list_sum (map c_ncon cs))%nat) (concat (jac_rows_from o cs))) as G.
      { intros o cs; revert o; induction cs as [|c r IH]; intros o Hc; simpl; [constructor|]. apply Forall_app. split.
        - apply Forall_map. eapply Forall_impl; [|apply (wf_jr c (Hc c (or_introl eq_refl)))]. intros a Ha. simpl in *. lia.
        - eapply Forall_impl; [|apply IH; intros; apply Hc; simpl; auto]. intros a Ha. simpl in *. lia. }
      apply (G 0%nat). intros; now apply L.
    + apply Forall_concat. apply Forall_map. apply Forall_forall. intros c Hc. destruct (L c Hc) as (W & <- & _). apply W.
Qed.
Print Assumptions C16_jacobian_stack.

(** Hence: if every registered piece has an exact raw jacobian, the composite (scaled) jacobian is the
    derivative of the composite (scaled) constraints. *)
Theorem C16_jacobian_exact : forall n p, reachable n p -> p_cons p <> [] ->
  Forall (fun v => v <> 0) (p_scales p) ->
  (forall c, In c (values (p_cons p)) -> Forall (fun v => v <> 0) (c_con c) /\
      is_jacobian n (c_ncon c) (c_f c) (fun x => tri (c_jr c) (c_jc c) (c_j c x))) ->
  exists G J rs cs, prob_jacobianstructure p = Ok (rs, cs) /\
    (forall x, List.length x = n -> prob_constraints p x = Ok (G x) /\ prob_jacobian p x = Ok (J x)) /\
    is_jacobian n (num_con p) G (fun x => tri rs cs (J x)).
Proof.
  intros n p H Hne Ns D. destruct (reachable_inv n p H) as [I E].
  assert (values (p_cons p) <> []) as Hv by (unfold values; destruct (p_cons p); simpl; congruence).
  destruct (C16_jacobian_stack n p (ones n) H Hne (repeat_length _ _)) as (rs & cs & _ & Es & _ & _ & _).
  exists (fun x => concat (map (fun c => con_constraints c x) (values (p_cons p)))),
         (fun x => concat (map (fun c => con_jacobian c x) (values (p_cons p)))), rs, cs.
  split; [assumption|]. split.
  - intros x Hx. split; apply hstackl_ne; intro C; apply Hv; eapply map_eq_nil; exact C.
  - intros x r j Hx Hr Hj. unfold num_con in Hr. destruct (locate _ _ Hr) as (k & c & i & Hk & Hi & ->).
    assert (In c (values (p_cons p))) as Hin by (eapply nth_error_In; eauto).
    apply in_map_iff in Hin as Hin'. destruct Hin' as ([nm c'] & Ek & Hin2). simpl in Ek. subst c'.
    assert (forall c, In c (values (p_cons p)) -> con_wf c /\ List.length (c_con c) = c_ncon c /\ c_nin c = n /\ c = rescaled c (p_scales p) (c_con c)) as Q.
    { intros d Hd. apply in_map_iff in Hd. destruct Hd as ([k' c'] & Ek & Hin3). simpl in Ek. subst c'.
      pose proof (pi_c p I) as F. rewrite Forall_forall in F. destruct (F _ Hin3) as ([W Hl] & Hn & Ec). simpl in *.
      split; [assumption|]. split; [assumption|]. split; [congruence|assumption]. }
    destruct (Q c Hin) as (W & Lc & Nc & Ec). pose proof (pi_s p I) as Ls.
    destruct (C16_jacobian_stack n p x H Hne Hx) as (rs2 & cs2 & js & Es2 & Ej & Hst & _).
    rewrite Es in Es2. inversion Es2; subst rs2 cs2.
    assert (js = concat (map (fun c => con_jacobian c x) (values (p_cons p)))) as <-.
    { unfold prob_jacobian in Ej. rewrite hstackl_ne in Ej by (intro C; apply Hv; eapply map_eq_nil; exact C). now inversion Ej. }
    unfold off. rewrite (Hst k c i j Hk Hi).
    apply pderiv_ext_len with (f := fun y => vget i (con_constraints c y)).
    + intros y Hy. symmetry. apply concat_get with (F := fun c => con_constraints c y); auto.
      apply Forall_forall. intros d Hd. destruct (Q d Hd) as (Wd & Ld & Nd & Ed). apply (piece_lens d (p_scales p) y Wd ltac:(congruence) Ld Ed ltac:(congruence)).
    + destruct (D c Hin) as [Dc DJ]. rewrite <- Nc in DJ.
      assert (is_jacobian (c_nin c) (c_ncon c) (con_constraints c) (fun x => tri (c_jr c) (c_jc c) (con_jacobian c x))) as DD.
      { pose proof (resc_is_jacobian c (p_scales p) (c_con c) W ltac:(congruence) Lc Ns Dc DJ) as R. rewrite <- Ec in R. exact R. }
      apply DD; congruence.
Qed.
Print Assumptions C16_jacobian_exact.

Example C16_nonvacuous : p_cons (prun (make_prob 2) ex_ops) <> [] /\ Forall (fun v => v <> 0) (p_scales (prun (make_prob 2) ex_ops)) /\
  (forall c, In c (values (p_cons (prun (make_prob 2) ex_ops))) -> Forall (fun v => v <> 0) (c_con c) /\
      is_jacobian 2 (c_ncon c) (c_f c) (fun x => tri (c_jr c) (c_jc c) (c_j c x))).
Proof.
  split; [discriminate|]. split; [repeat constructor; simpl; lra|].
  intros c Hc. simpl in Hc. destruct Hc as [<-|[<-|[]]]; (split; [repeat constructor; simpl; lra|]); exact (proj1 C14_nonvacuous).
Qed.

(** *** C17 *)
(** Read-only calls and rescaling, between which a stored index mask stays valid. *)
Definition non_structural (o : pop) : Prop :=
  match o with PScales _ | PHStruct | PHess _ _ _ => True | _ => False end.

Lemma mask_kept : forall n ops p, prob_inv p -> p_n p = n -> (p_cons p <> [] \/ p_objs p <> []) ->
  Forall (pop_ok n) ops -> Forall non_structural ops ->
  (p_triu p = None \/ p_triu p = Some (cur_mask p)) ->
  (p_triu (prun p ops) = None \/ p_triu (prun p ops) = Some (cur_mask (prun p ops))) /\
  cur_mask (prun p ops) = cur_mask p /\ (p_cons (prun p ops) <> [] \/ p_objs (prun p ops) <> []).
Proof.
  intros n ops; induction ops as [|o r IH]; intros p I E Hne Hok Hns Ht; simpl; [auto|].
  inversion Hok as [|? ? Ho Hr]; subst. inversion Hns as [|? ? Hs Hsr]; subst.
  assert (cur_mask (pstep p o) = cur_mask p /\ (p_triu (pstep p o) = None \/ p_triu (pstep p o) = Some (cur_mask (pstep p o))) /\
    (p_cons (pstep p o) <> [] \/ p_objs (pstep p o) <> [])) as (S1 & S2 & S3).
  { assert (hess_rows p <> [] /\ hess_cols p <> []) as [Nr Nc].
    { unfold hess_rows, hess_cols, values. destruct (p_cons p), (p_objs p); simpl; split; try discriminate; destruct Hne; congruence. }
    destruct o; simpl in Hs; try contradiction; simpl pstep.
    - simpl in Ho. rewrite set_scales_ok by assumption. simpl keep.
      assert (forall p', p_cons p' = map (fun kc => (fst kc, rescaled (snd kc) s (c_con (snd kc)))) (p_cons p) ->
        p_objs p' = map (fun ko => (fst ko, orescaled (snd ko) s)) (p_objs p) -> cur_mask p' = cur_mask p) as M.
      { intros p' E1 E2. unfold cur_mask, hess_rows, hess_cols, values. rewrite E1, E2, !map_map. reflexivity. }
      rewrite !M by reflexivity. split; [reflexivity|]. split; [exact Ht|]. simpl.
      destruct Hne; [left|right]; intro C; apply map_eq_nil in C; contradiction.
    - unfold prob_hessianstructure. rewrite !hstackl_ne by assumption. simpl. split; [reflexivity|]. split; [right; reflexivity | exact Hne].
    - unfold prob_hessian. destruct Ht as [Ht|Ht]; rewrite Ht.
      + unfold prob_hessianstructure. rewrite !hstackl_ne by assumption. simpl. split; [reflexivity|]. split; [right; reflexivity | exact Hne].
      + simpl. split; [reflexivity|]. split; [right; assumption | exact Hne]. }
  destruct (pstep_inv p o I) as [I' E']; [assumption|].
  destruct (IH (pstep p o) I' E' S3 Hr Hsr S2) as (T1 & T2 & T3). split; [exact T1|]. split; [congruence | exact T3].
Qed.

(** Structure queried (as IPOPT does once per solve) and then any number of evaluations and rescalings:
    the matrix is the upper triangle of obj_factor * sum of objective hessians + constraint terms, each
    constraint seeing its own consecutive slice of the multipliers ([con_terms]). *)
Theorem C17_hessian_assembly : forall n p0 ops x lam fac, reachable n p0 -> (p_cons p0 <> [] \/ p_objs p0 <> []) ->
  Forall (pop_ok n) ops -> Forall non_structural ops ->
  let p := prun (fst (prob_hessianstructure p0)) ops in
  List.length x = n -> List.length lam = num_con p ->
  exists vs rs cs, snd (prob_hessian p x lam fac) = Ok vs /\ snd (prob_hessianstructure p) = Ok (rs, cs) /\
    snd (prob_hessianstructure p0) = Ok (rs, cs) /\
    List.length rs = List.length cs /\ List.length vs = List.length rs /\
    forall i j, tri rs cs vs i j = if Nat.leb i j then
      con_terms (fun c l => tri (c_hr c) (c_hc c) (con_hessian c x l) i j) (values (p_cons p)) lam
      + fac * rsum (map (fun o => tri (o_hr o) (o_hc o) (obj_hessian o x) i j) (values (p_objs p)))
      else 0.
Proof.
  intros n p0 ops x lam fac H Hne Hok Hns p Hx Hl. destruct (reachable_inv n p0 H) as [I0 E0].
  assert (hess_rows p0 <> [] /\ hess_cols p0 <> []) as [Nr Nc].
  { unfold hess_rows, hess_cols, values. destruct (p_cons p0), (p_objs p0); simpl; split; try discriminate; destruct Hne; congruence. }
  assert (fst (prob_hessianstructure p0) = set_triu p0 (Some (cur_mask p0))) as E1.
  { unfold prob_hessianstructure. now rewrite !hstackl_ne. }
  assert (p = prun (set_triu p0 (Some (cur_mask p0))) ops) as Ep by (unfold p; now rewrite E1).
  clearbody p. clear E1. subst p. set (p := prun (set_triu p0 (Some (cur_mask p0))) ops) in *.
  destruct (mask_kept n ops (set_triu p0 (Some (cur_mask p0)))) as (T1 & T2 & T3); auto; try (now apply inv_triu).
  fold p in T1, T2, T3.
  destruct (prun_inv ops (set_triu p0 (Some (cur_mask p0)))) as [I E]; [now apply inv_triu | simpl; now rewrite E0|]. fold p in I, E.
  destruct (hess_value p x lam fac I) as (vs & rs & cs & V1 & V2 & V3 & V4 & V5); auto; [simpl in E; congruence|].
  exists vs, rs, cs. split; [exact V1|]. split; [exact V2|]. split; [|auto].
  rewrite <- V2. unfold prob_hessianstructure. rewrite !hstackl_ne by assumption.
  (* the structure does not change under non structural calls *)
  assert (forall ops q, prob_inv q -> p_n q = n -> Forall (pop_ok n) ops -> Forall non_structural ops ->
     hess_rows (prun q ops) = hess_rows q /\ hess_cols (prun q ops) = hess_cols q) as G.
  { clear. intros ops; induction ops as [|o r IH]; intros q Iq Eq Hok Hns; simpl; [auto|].
    inversion Hok as [|? ? Ho Hr]; subst. inversion Hns as [|? ? Hs Hsr]; subst.
    assert (hess_rows (pstep q o) = hess_rows q /\ hess_cols (pstep q o) = hess_cols q) as [A B].
    { destruct o; simpl in Hs; try contradiction; simpl pstep.
      - simpl in Ho. rewrite set_scales_ok by assumption. simpl keep. unfold hess_rows, hess_cols, values. simpl. now rewrite !map_map.
      - destruct (hstruct_same q) as [m ->]. split; reflexivity.
      - destruct (hess_same q x lam obj_factor) as [m ->]. split; reflexivity. }
    destruct (pstep_inv q o Iq Ho) as [I' E']. destruct (IH (pstep q o) I' E' Hr Hsr) as [C D]. split; congruence. }
  destruct (G ops (set_triu p0 (Some (cur_mask p0)))) as [G1 G2]; [now apply inv_triu | exact E0 | assumption | assumption|].
  fold p in G1, G2. rewrite G1, G2. change (hess_rows (set_triu p0 (Some (cur_mask p0)))) with (hess_rows p0).
  change (hess_cols (set_triu p0 (Some (cur_mask p0)))) with (hess_cols p0).
  rewrite !hstackl_ne by assumption. reflexivity.
Qed.
Print Assumptions C17_hessian_assembly.

(** Hence it is the upper triangle of the hessian of the scaled lagrangian
    obj_factor * objective + lam . constraints, if every raw piece hessian is exact. *)
Theorem C17_lagrangian_hessian : forall n p fac lam, reachable n p -> p_cons p <> [] -> p_objs p <> [] ->
  (p_triu p = None) -> Forall (fun v => v <> 0) (p_scales p) -> List.length lam = num_con p ->
  (forall c l, In c (values (p_cons p)) -> List.length l = c_ncon c ->
     is_hessian_on (fun i j => (i <= j)%nat) n (fun x => vdot l (c_f c x)) (fun x => tri (c_hr c) (c_hc c) (c_h c x l))) ->
  (forall o, In o (values (p_objs p)) ->
     is_hessian_on (fun i j => (i <= j)%nat) n (o_f o) (fun x => tri (o_hr o) (o_hc o) (o_h o x))) ->
  exists L V rs cs, snd (prob_hessianstructure p) = Ok (rs, cs) /\
    (forall x, List.length x = n -> snd (prob_hessian p x lam fac) = Ok (V x) /\
       exists f g, prob_objective p x = Ok f /\ prob_constraints p x = Ok g /\ L x = fac * f + vdot lam g) /\
    is_hessian_on (fun i j => (i <= j)%nat) n L (fun x => tri rs cs (V x)).
Proof.
  intros n p fac lam H Hnc Hno Ht Ns Hl Dc Do. destruct (reachable_inv n p H) as [I E].
  assert (values (p_cons p) <> []) as Hv by (unfold values; destruct (p_cons p); simpl; congruence).
  assert (values (p_objs p) <> []) as Hvo by (unfold values; destruct (p_objs p); simpl; congruence).
  pose (HV := fun x => match snd (prob_hessian p x lam fac) with Ok v => v | Raise _ => [] end).
  destruct (snd (prob_hessianstructure p)) as [[rs cs]|e] eqn:Es.
  2:{ exfalso. destruct (hess_value p (ones n) lam fac I) as (vs & rs & cs & _ & V2 & _); auto;
      [rewrite E; apply repeat_length|]. rewrite Es in V2; discriminate. }
  exists (fun x => fac * rsum (map (fun o => obj_objective o x) (values (p_objs p)))
               + vdot lam (concat (map (fun c => con_constraints c x) (values (p_cons p))))), HV, rs, cs.
  split; [reflexivity|]. split.
  - intros x Hx. destruct (hess_value p x lam fac I) as (vs & rs' & cs' & V1 & V2 & _); auto; [congruence|].
    split; [unfold HV; rewrite V1; reflexivity|].
    exists (rsum (map (fun o => obj_objective o x) (values (p_objs p)))), (concat (map (fun c => con_constraints c x) (values (p_cons p)))).
    split; [|split].
    + unfold prob_objective. rewrite hstackl_ne by (intro C; apply Hvo; eapply map_eq_nil; exact C). simpl. f_equal. f_equal.
      clear. induction (values (p_objs p)); simpl; congruence.
    + apply hstackl_ne; intro C; apply Hv; eapply map_eq_nil; exact C.
    + reflexivity.
  - assert (forall c, In c (values (p_cons p)) -> con_wf c /\ List.length (c_con c) = c_ncon c /\ c_nin c = n /\ c = rescaled c (p_scales p) (c_con c)) as Q.
    { intros d Hd. apply in_map_iff in Hd. destruct Hd as ([k' c'] & Ek & Hin3). simpl in Ek. subst c'.
      pose proof (pi_c p I) as F. rewrite Forall_forall in F. destruct (F _ Hin3) as ([W Hlc] & Hn & Ec). simpl in *.
      split; [assumption|]. split; [assumption|]. split; [congruence|assumption]. }
    pose proof (pi_s p I) as Ls.
    apply hess_on_ext with
      (f := fun x => fac * rsum (map (fun o => obj_objective o x) (values (p_objs p)))
                   + con_terms (fun c l => vdot l (con_constraints c x)) (values (p_cons p)) lam)
      (H := fun x i j => fac * rsum (map (fun o => tri (o_hr o) (o_hc o) (obj_hessian o x) i j) (values (p_objs p)))
                       + con_terms (fun c l => tri (c_hr c) (c_hc c) (con_hessian c x l) i j) (values (p_cons p)) lam).
    + intros x Hx. f_equal. symmetry. apply (vdot_slices (fun c => con_constraints c x)); [|exact Hl].
      intros c Hc. destruct (Q c Hc) as (W & Lc & Nc & Ec). apply (piece_lens c (p_scales p) x W ltac:(congruence) Lc Ec ltac:(congruence)).
    + intros x i j Hx Hij. destruct (hess_value p x lam fac I) as (vs & rs' & cs' & V1 & V2 & _ & _ & V5); auto; [congruence|].
      rewrite Es in V2. inversion V2; subst rs' cs'. unfold HV. rewrite V1, V5. apply Nat.leb_le in Hij. rewrite Hij. ring.
    + apply (hess_on_plus _ n (fun x => fac * rsum (map (fun o => obj_objective o x) (values (p_objs p))))).
      * apply (hess_on_scal _ n fac (fun x => rsum (map (fun o => obj_objective o x) (values (p_objs p))))). apply hess_on_sum.
        intros o Ho. apply in_map_iff in Ho as Ho'. destruct Ho' as ([k o'] & Ek & Hin). simpl in Ek. subst o'.
        pose proof (pi_o p I) as F. rewrite Forall_forall in F. destruct (F _ Hin) as (W & Eo). simpl in *.
        assert (is_hessian_on (fun i j => (i <= j)%nat) n (obj_objective (orescaled o (p_scales p)))
          (fun x => tri (o_hr o) (o_hc o) (obj_hessian (orescaled o (p_scales p)) x))) as R.
        { apply obj_is_hessian; [congruence|congruence|assumption|]. apply Do. assumption. }
        rewrite <- Eo in R. exact R.
      * apply (hess_on_terms _ n (fun c x => con_constraints c x) (fun c l x i j => tri (c_hr c) (c_hc c) (con_hessian c x l) i j)); [|exact Hl].
        intros c l Hc Hlen. destruct (Q c Hc) as (W & Lc & Nc & Ec).
        assert (is_hessian_on (fun i j => (i <= j)%nat) (c_nin c) (fun x => vdot l (con_constraints (rescaled c (p_scales p) (c_con c)) x))
           (fun x => tri (c_hr c) (c_hc c) (con_hessian (rescaled c (p_scales p) (c_con c)) x l))) as R.
        { apply resc_is_hessian; auto; [congruence|]. intros l' Hl'. rewrite Nc. now apply Dc. }
        rewrite <- Ec, Nc in R. exact R.
Qed.
Print Assumptions C17_lagrangian_hessian.

(** Finding: [hessian] keeps using the mask of an earlier structure.  Evaluate once, add a
    constraint, evaluate again without re-querying the structure: IndexError. *)
Theorem C17_stale_mask_refuted : exists p p1, reachable 2 p /\ add_constraints p "b" ex_con = Ok p1 /\
  (exists v, snd (prob_hessian p [1; 1] [1; 1] 1) = Ok v) /\
  snd (prob_hessian p1 [1; 1] [1; 1; 1; 1] 1) = Raise IndexError.
Proof.
  exists (prun (make_prob 2) [PAddC "a" ex_con; PHStruct]). eexists. split.
  { exists [PAddC "a" ex_con; PHStruct]. split; [|reflexivity]. constructor; [split; [exact ex_con_wf|reflexivity]|]. constructor; [exact Logic.I|constructor]. }
  split; [reflexivity|]. split; [eexists; reflexivity | reflexivity].
Qed.
Print Assumptions C17_stale_mask_refuted.

Example C17_nonvacuous : reachable 2 (prun (make_prob 2) ex_ops) /\ p_cons (prun (make_prob 2) ex_ops) <> [] /\ p_objs (prun (make_prob 2) ex_ops) <> [] /\
  p_triu (prun (make_prob 2) ex_ops) = None /\ num_con (prun (make_prob 2) ex_ops) = 4%nat /\
  (forall o, In o (values (p_objs (prun (make_prob 2) ex_ops))) ->
     is_hessian_on (fun i j => (i <= j)%nat) 2 (o_f o) (fun x => tri (o_hr o) (o_hc o) (o_h o x))).
Proof.
  split; [apply C15_nonvacuous|]. split; [discriminate|]. split; [discriminate|]. split; [reflexivity|]. split; [reflexivity|].
  intros o Ho. simpl in Ho. destruct Ho as [<-|[]]. exists (fun _ j => if Nat.eqb 0 j then 1 else 0). split.
  - intros x j Hx Hj. apply (pderiv_coord 0 j x). lia.
  - intros x j k Hx Hj Hk _. eapply pderiv_eq; [|apply pderiv_const]. simpl.
    destruct (match j with O => true | S _ => false end), (match k with O => true | S _ => false end); simpl; lra.
Qed.
