(** Proofs for nlp.py scaling (C13, C14, C19). *)
From Verif Require Import Base RBase TreeModel NlpModel.

(** second derivatives on the positions selected by [P] *)
Definition is_hessian_on (P : nat -> nat -> Prop) (n : nat) (f : list R -> R) (H : list R -> nat -> nat -> R) : Prop :=
  exists g : list R -> nat -> R, is_gradient n f g /\
    forall x j k, List.length x = n -> (j < n)%nat -> (k < n)%nat -> P j k ->
      pderiv (fun y => g y j) x k (H x j k).

(** Well-formed user callables: the shapes the class documents. *)
Record con_wf (c : bcon) : Prop := {
  wf_j : List.length (c_jr c) = List.length (c_jc c);
  wf_jr : Forall (fun r => (r < c_ncon c)%nat) (c_jr c);
  wf_jc : Forall (fun r => (r < c_nin c)%nat) (c_jc c);
  wf_h : List.length (c_hr c) = List.length (c_hc c);
  wf_hr : Forall (fun r => (r < c_nin c)%nat) (c_hr c);
  wf_hc : Forall (fun r => (r < c_nin c)%nat) (c_hc c);
  wf_f : forall x, List.length x = c_nin c -> List.length (c_f c x) = c_ncon c;
  wf_jv : forall x, List.length x = c_nin c -> List.length (c_j c x) = List.length (c_jr c);
  wf_hv : forall x lam, List.length x = c_nin c -> List.length lam = c_ncon c ->
          List.length (c_h c x lam) = List.length (c_hr c);
}.

(** the object that behaves as if built with input scales [si] and constraint scales [sc] *)
Definition rescaled (c : bcon) (si sc : list R) : bcon :=
  {| c_nin := c_nin c; c_ncon := c_ncon c; c_f := c_f c; c_j := c_j c; c_h := c_h c;
     c_jr := c_jr c; c_jc := c_jc c; c_hr := c_hr c; c_hc := c_hc c; c_in := si; c_con := sc;
     c_js := map2 (fun r k => vget r sc / vget k si) (c_jr c) (c_jc c);
     c_hs := map2 (fun r k => 1 / (vget r si * vget k si)) (c_hr c) (c_hc c) |}.

Lemma map2_map_l : forall A B C D (f : B -> C -> D) (g : A -> B) l m, map2 f (map g l) m = map2 (fun a c => f (g a) c) l m.
Proof. intros A B C D f g l; induction l as [|a r IH]; intros [|b s]; simpl; auto. now rewrite IH. Qed.
Lemma map2_map_r : forall A B C D (f : B -> C -> D) (g : A -> C) l m, map2 f l (map g m) = map2 (fun b a => f b (g a)) l m.
Proof. intros A B C D f g l; induction l as [|a r IH]; intros [|b s]; simpl; auto. now rewrite IH. Qed.
Lemma map_map2 : forall A B C D (h : C -> D) (f : A -> B -> C) l m, map h (map2 f l m) = map2 (fun a b => h (f a b)) l m.
Proof. intros A B C D h f l; induction l as [|a r IH]; intros [|b s]; simpl; auto. now rewrite IH. Qed.

Lemma gather_vget : forall a idx, Forall (fun i => (i < List.length a)%nat) idx -> gather a idx = Ok (map (fun i => vget i a) idx).
Proof. intros. unfold vget. now apply gather_ok. Qed.

Lemma update_jac_ok : forall c, con_wf c -> List.length (c_in c) = c_nin c -> List.length (c_con c) = c_ncon c ->
  update_jac_scales c = Ok (with_js c (map2 (fun r k => vget r (c_con c) / vget k (c_in c)) (c_jr c) (c_jc c))).
Proof.
  intros c W Hi Hc. unfold update_jac_scales.
  rewrite gather_vget by (rewrite Hc; apply W). cbn [bind]. rewrite gather_vget by (rewrite Hi; apply W). cbn [bind].
  unfold vdiv. rewrite map2_map_l, map2_map_r. reflexivity.
Qed.

Lemma update_hess_ok : forall c, con_wf c -> List.length (c_in c) = c_nin c ->
  update_hess_scales c = Ok (with_hs c (map2 (fun r k => 1 / (vget r (c_in c) * vget k (c_in c))) (c_hr c) (c_hc c))).
Proof.
  intros c W Hi. unfold update_hess_scales.
  rewrite gather_vget by (rewrite Hi; apply W). cbn [bind]. rewrite gather_vget by (rewrite Hi; apply W). cbn [bind].
  unfold vmul. rewrite map2_map_l, map2_map_r, map_map2. reflexivity.
Qed.

Lemma con_wf_same : forall c c', con_wf c -> c_nin c' = c_nin c -> c_ncon c' = c_ncon c -> c_f c' = c_f c -> c_j c' = c_j c ->
  c_h c' = c_h c -> c_jr c' = c_jr c -> c_jc c' = c_jc c -> c_hr c' = c_hr c -> c_hc c' = c_hc c -> con_wf c'.
Proof.
  intros c c' W E1 E2 E3 E4 E5 E6 E7 E8 E9. destruct W.
  constructor; rewrite ?E1, ?E2, ?E3, ?E4, ?E5, ?E6, ?E7, ?E8, ?E9; assumption.
Qed.

Lemma set_in_ok : forall c si sc s, con_wf c -> List.length sc = c_ncon c -> List.length s = c_nin c ->
  set_input_scales (rescaled c si sc) s = Ok (rescaled c s sc).
Proof.
  intros c si sc s W Hc Hs. unfold set_input_scales.
  rewrite update_jac_ok; [cbn [bind] | eapply con_wf_same; eauto | exact Hs | exact Hc].
  rewrite update_hess_ok; [reflexivity | eapply con_wf_same; eauto | exact Hs].
Qed.

Lemma set_con_ok : forall c si sc s, con_wf c -> List.length si = c_nin c -> List.length s = c_ncon c ->
  set_con_scales (rescaled c si sc) s = Ok (rescaled c si s).
Proof.
  intros c si sc s W Hc Hs. unfold set_con_scales.
  rewrite update_jac_ok; [reflexivity | eapply con_wf_same; eauto | exact Hc | exact Hs].
Qed.

Lemma make_con_ok : forall nin ncon f j h js hs c, make_con nin ncon f j h js hs = Ok c -> con_wf c ->
  c = rescaled c (ones nin) (ones ncon) /\ c_nin c = nin /\ c_ncon c = ncon /\ c_f c = f /\ c_j c = j /\ c_h c = h.
Proof.
  intros nin ncon f j h js hs c H W. unfold make_con in H.
  match type of H with bind (update_jac_scales ?c0) _ = _ => set (c00 := c0) in * end.
  assert (c_nin c = nin /\ c_ncon c = ncon /\ c_f c = f /\ c_j c = j /\ c_h c = h /\
    c_jr c = c_jr c00 /\ c_jc c = c_jc c00 /\ c_hr c = c_hr c00 /\ c_hc c = c_hc c00) as (E1 & E2 & E3 & E4 & E5 & E6 & E7 & E8 & E9).
  { unfold update_jac_scales in H. destruct (gather (c_con c00) (c_jr c00)); [|discriminate]. cbn [bind] in H.
    destruct (gather (c_in c00) (c_jc c00)); [|discriminate]. cbn [bind] in H.
    unfold update_hess_scales in H. simpl in H. destruct (gather _ _) in H; [|discriminate]. simpl in H.
    destruct (gather _ _) in H; [|discriminate]. inversion H; subst. simpl. tauto. }
  assert (con_wf c00) as W0 by (eapply con_wf_same; eauto; symmetry; auto).
  rewrite update_jac_ok in H; [|assumption|apply repeat_length|apply repeat_length]. cbn [bind] in H.
  rewrite update_hess_ok in H; [|eapply con_wf_same; eauto|apply repeat_length].
  split; [|tauto]. inversion H; subst c. reflexivity.
Qed.

(** ** Histories of scale changes *)
Inductive sop := SIn (s : list R) | SCon (s : list R).
Definition apply_sop (c : bcon) (o : sop) : result bcon :=
  match o with SIn s => set_input_scales c s | SCon s => set_con_scales c s end.
Definition sop_ok (nin ncon : nat) (o : sop) : Prop :=
  match o with SIn s => List.length s = nin | SCon s => List.length s = ncon end.
(** the scales in force after a history: the last ones set *)
Definition last_in (d : list R) (ops : list sop) : list R :=
  fold_left (fun a o => match o with SIn s => s | SCon _ => a end) ops d.
Definition last_con (d : list R) (ops : list sop) : list R :=
  fold_left (fun a o => match o with SCon s => s | SIn _ => a end) ops d.

Lemma run_sops : forall ops c si sc, con_wf c -> List.length si = c_nin c -> List.length sc = c_ncon c ->
  Forall (sop_ok (c_nin c) (c_ncon c)) ops ->
  foldM apply_sop ops (rescaled c si sc) = Ok (rescaled c (last_in si ops) (last_con sc ops)) /\
  List.length (last_in si ops) = c_nin c /\ List.length (last_con sc ops) = c_ncon c.
Proof.
  intros ops; induction ops as [|o r IH]; intros c si sc W Hi Hc H; simpl; [auto|].
  inversion H; subst. destruct o as [s|s]; simpl in *.
  - rewrite set_in_ok by assumption. apply IH; assumption.
  - rewrite set_con_ok by assumption. apply IH; assumption.
Qed.

(** ** Values of a rescaled object *)
Lemma vdiv_js : forall vals (s : nat -> nat -> R) rs cs, 
  vdiv vals (map2 s rs cs) = map2 Rmult vals (map2 (fun r c => / s r c) rs cs).
Proof.
  intros vals s rs; revert vals; induction rs as [|r rs IH]; intros [|v vs] [|c cs]; simpl; auto.
  unfold vdiv in *. simpl. now rewrite IH.
Qed.

Section Values.
Context (c : bcon) (si sc : list R) (W : con_wf c) (Hi : List.length si = c_nin c) (Hc : List.length sc = c_ncon c).

Lemma xs_len : forall x, List.length x = c_nin c -> List.length (vmul x si) = c_nin c.
Proof using Hi. intros. rewrite vmul_length; congruence. Qed.

Lemma resc_constraints : forall x i, List.length x = c_nin c -> (i < c_ncon c)%nat ->
  vget i (con_constraints (rescaled c si sc) x) = vget i (c_f c (vmul x si)) / vget i sc.
Proof using W Hi Hc.
  intros x i Hx Hlt. unfold con_constraints. simpl.
  apply vget_vdiv; rewrite (wf_f c W) by (now apply xs_len); auto.
Qed.

Lemma resc_constraints_len : forall x, List.length x = c_nin c -> List.length (con_constraints (rescaled c si sc) x) = c_ncon c.
Proof using W Hi Hc.
  intros x Hx. unfold con_constraints. simpl. rewrite vdiv_length; rewrite (wf_f c W) by (now apply xs_len); auto.
Qed.

Lemma resc_jacobian : forall x i j, List.length x = c_nin c -> Forall (fun v => v <> 0) si -> Forall (fun v => v <> 0) sc ->
  tri (c_jr c) (c_jc c) (con_jacobian (rescaled c si sc) x) i j =
  tri (c_jr c) (c_jc c) (c_j c (vmul x si)) i j * (vget j si / vget i sc).
Proof using W Hi Hc.
  intros x i j Hx Ni Nc. unfold con_jacobian. simpl. rewrite vdiv_js.
  destruct (Nat.lt_ge_cases i (c_ncon c)) as [Hil|Hil]; [destruct (Nat.lt_ge_cases j (c_nin c)) as [Hjl|Hjl]|].
  - rewrite tri_scaled; [|apply W | now rewrite (wf_jv c W) by (now apply xs_len)]. f_equal. field. split.
    + apply (Forall_vget _ _ _ Nc). lia.
    + apply (Forall_vget _ _ _ Ni). lia.
  - rewrite !tri_zero_col; [lra| |]; eapply Forall_impl; try apply (wf_jc c W); intros a Ha; simpl in Ha; lia.
  - rewrite !tri_zero_row; [lra| |]; eapply Forall_impl; try apply (wf_jr c W); intros a Ha; simpl in Ha; lia.
Qed.

Lemma resc_jacobian_len : forall x, List.length x = c_nin c -> List.length (con_jacobian (rescaled c si sc) x) = List.length (c_jr c).
Proof using W Hi Hc.
  intros x Hx. unfold con_jacobian. simpl. pose proof (wf_jv c W (vmul x si) (xs_len _ Hx)) as E.
  rewrite vdiv_length; [exact E|]. rewrite map2_length; [exact E | apply W].
Qed.

Lemma resc_hessian : forall x lam i j, List.length x = c_nin c -> List.length lam = c_ncon c -> Forall (fun v => v <> 0) si ->
  tri (c_hr c) (c_hc c) (con_hessian (rescaled c si sc) x lam) i j =
  tri (c_hr c) (c_hc c) (c_h c (vmul x si) (vdiv lam sc)) i j * (vget i si * vget j si).
Proof using W Hi Hc.
  intros x lam i j Hx Hl Ni. unfold con_hessian. simpl. rewrite vdiv_js.
  destruct (Nat.lt_ge_cases i (c_nin c)) as [Hil|Hil]; [destruct (Nat.lt_ge_cases j (c_nin c)) as [Hjl|Hjl]|].
  - rewrite tri_scaled; [|apply W|].
    + f_equal. field. split; apply (Forall_vget _ _ _ Ni); lia.
    + rewrite (wf_hv c W); [reflexivity | now apply xs_len |]. rewrite vdiv_length; congruence.
  - rewrite !tri_zero_col; [lra| |]; eapply Forall_impl; try apply (wf_hc c W); intros a Ha; simpl in Ha; lia.
  - rewrite !tri_zero_row; [lra| |]; eapply Forall_impl; try apply (wf_hr c W); intros a Ha; simpl in Ha; lia.
Qed.

Lemma resc_hessian_len : forall x lam, List.length x = c_nin c -> List.length lam = c_ncon c ->
  List.length (con_hessian (rescaled c si sc) x lam) = List.length (c_hr c).
Proof using W Hi Hc.
  intros x lam Hx Hl. unfold con_hessian. simpl.
  assert (List.length (c_h c (vmul x si) (vdiv lam sc)) = List.length (c_hr c)) as E.
  { apply (wf_hv c W); [now apply xs_len|]. rewrite vdiv_length; congruence. }
  rewrite vdiv_length; [exact E|]. rewrite map2_length; [exact E | apply W].
Qed.

(** *** C14 *)
Lemma resc_is_jacobian : Forall (fun v => v <> 0) si -> Forall (fun v => v <> 0) sc ->
  is_jacobian (c_nin c) (c_ncon c) (c_f c) (fun x => tri (c_jr c) (c_jc c) (c_j c x)) ->
  is_jacobian (c_nin c) (c_ncon c) (con_constraints (rescaled c si sc))
     (fun x => tri (c_jr c) (c_jc c) (con_jacobian (rescaled c si sc) x)).
Proof using W Hi Hc.
  intros Ni Nc H x i j Hx Hil Hjl. rewrite resc_jacobian by assumption.
  apply pderiv_ext_len with (f := fun y => / vget i sc * vget i (c_f c (vmul y si))).
  { intros y Hy. rewrite resc_constraints by congruence. unfold Rdiv. ring. }
  apply pderiv_eq with (d := / vget i sc * (tri (c_jr c) (c_jc c) (c_j c (vmul x si)) i j * vget j si)).
  { unfold Rdiv. ring. }
  apply pderiv_scal. apply (pderiv_vmul (fun z => vget i (c_f c z))); [congruence | lia|].
  apply H; [now apply xs_len | assumption | assumption].
Qed.

Lemma vdot_vdiv : forall lam f s, vdot lam (vdiv f s) = vdot (vdiv lam s) f.
Proof using.
  unfold vdot, vmul, vdiv. intros lam; induction lam as [|a r IH]; intros [|b f] [|d s]; simpl; auto.
  rewrite IH. unfold Rdiv. ring.
Qed.

Lemma resc_is_hessian : forall P lam, Forall (fun v => v <> 0) si -> List.length lam = c_ncon c ->
  (forall l, List.length l = c_ncon c ->
     is_hessian_on P (c_nin c) (fun x => vdot l (c_f c x)) (fun x => tri (c_hr c) (c_hc c) (c_h c x l))) ->
  is_hessian_on P (c_nin c) (fun x => vdot lam (con_constraints (rescaled c si sc) x))
     (fun x => tri (c_hr c) (c_hc c) (con_hessian (rescaled c si sc) x lam)).
Proof using W Hi Hc.
  intros P lam Ni Hl H.
  destruct (H (vdiv lam sc)) as (g & Hg & Hh); [rewrite vdiv_length; congruence|].
  exists (fun x j => g (vmul x si) j * vget j si). split.
  - intros x j Hx Hj. apply pderiv_ext_len with (f := fun y => vdot (vdiv lam sc) (c_f c (vmul y si))).
    { intros y Hy. unfold con_constraints. simpl. now rewrite vdot_vdiv. }
    apply (pderiv_vmul (fun z => vdot (vdiv lam sc) (c_f c z))); [congruence | lia|].
    apply Hg; [now apply xs_len | assumption].
  - intros x j k Hx Hj Hk HP. rewrite resc_hessian by assumption.
    apply pderiv_ext with (f := fun y => vget j si * g (vmul y si) j); [intro; ring|].
    apply pderiv_eq with (d := vget j si * (tri (c_hr c) (c_hc c) (c_h c (vmul x si) (vdiv lam sc)) j k * vget k si)); [ring|].
    apply pderiv_scal. apply (pderiv_vmul (fun z => g z j)); [congruence | lia|].
    apply Hh; [now apply xs_len | assumption | assumption | assumption].
Qed.
End Values.

(** ** Objectives *)
Record obj_wf (n : nat) (o : bobj) : Prop := {
  ow_h : List.length (o_hr o) = List.length (o_hc o);
  ow_hr : Forall (fun r => (r < n)%nat) (o_hr o);
  ow_hc : Forall (fun r => (r < n)%nat) (o_hc o);
  ow_g : forall x, List.length x = n -> List.length (o_g o x) = n;
  ow_hv : forall x, List.length x = n -> List.length (o_h o x) = List.length (o_hr o);
}.

Definition orescaled (o : bobj) (si : list R) : bobj :=
  {| o_nin := o_nin o; o_f := o_f o; o_g := o_g o; o_h := o_h o; o_hr := o_hr o; o_hc := o_hc o;
     o_in := si; o_hs := map2 (fun r k => 1 / (vget r si * vget k si)) (o_hr o) (o_hc o) |}.

Lemma obj_set_ok : forall n o s, obj_wf n o -> List.length s = n -> obj_set_input_scales o s = Ok (orescaled o s).
Proof.
  intros n o s W Hs. unfold obj_set_input_scales, obj_update_hess_scales. cbn [o_in o_hr o_hc o_nin o_f o_g o_h].
  rewrite gather_vget by (rewrite Hs; apply W). cbn [bind]. rewrite gather_vget by (rewrite Hs; apply W). cbn [bind].
  unfold vmul. rewrite map2_map_l, map2_map_r, map_map2. reflexivity.
Qed.

Lemma obj_hessian_val : forall n o si x i j, obj_wf n o -> List.length si = n -> List.length x = n -> Forall (fun v => v <> 0) si ->
  tri (o_hr o) (o_hc o) (obj_hessian (orescaled o si) x) i j =
  tri (o_hr o) (o_hc o) (o_h o (vmul x si)) i j * (vget i si * vget j si).
Proof.
  intros n o si x i j W Hi Hx Ni. unfold obj_hessian. simpl. rewrite vdiv_js.
  assert (List.length (vmul x si) = n) as Hxs by (rewrite vmul_length; congruence).
  destruct (Nat.lt_ge_cases i n) as [Hil|Hil]; [destruct (Nat.lt_ge_cases j n) as [Hjl|Hjl]|].
  - rewrite tri_scaled; [|apply W|].
    + f_equal. field. split; apply (Forall_vget _ _ _ Ni); lia.
    + now rewrite (ow_hv n o W).
  - rewrite !tri_zero_col; [lra| |]; eapply Forall_impl; try apply (ow_hc n o W); intros a Ha; simpl in Ha; lia.
  - rewrite !tri_zero_row; [lra| |]; eapply Forall_impl; try apply (ow_hr n o W); intros a Ha; simpl in Ha; lia.
Qed.

Lemma obj_is_gradient : forall n o si, obj_wf n o -> List.length si = n ->
  is_gradient n (o_f o) (fun x j => vget j (o_g o x)) ->
  is_gradient n (obj_objective (orescaled o si)) (fun x j => vget j (obj_gradient (orescaled o si) x)).
Proof.
  intros n o si W Hi H x j Hx Hj. unfold obj_objective, obj_gradient. simpl.
  assert (List.length (vmul x si) = n) as Hxs by (rewrite vmul_length; congruence).
  rewrite vget_vmul by (rewrite (ow_g n o W) by assumption; congruence).
  apply (pderiv_vmul (o_f o)); [congruence | lia|]. now apply H.
Qed.

Lemma obj_is_hessian : forall P n o si, obj_wf n o -> List.length si = n -> Forall (fun v => v <> 0) si ->
  is_hessian_on P n (o_f o) (fun x => tri (o_hr o) (o_hc o) (o_h o x)) ->
  is_hessian_on P n (obj_objective (orescaled o si)) (fun x => tri (o_hr o) (o_hc o) (obj_hessian (orescaled o si) x)).
Proof.
  intros P n o si W Hi Ni (g & Hg & Hh).
  assert (forall x, List.length x = n -> List.length (vmul x si) = n) as Hxs by (intros; rewrite vmul_length; congruence).
  exists (fun x j => g (vmul x si) j * vget j si). split.
  - intros x j Hx Hj. apply (pderiv_vmul (o_f o)); [congruence | lia|]. apply Hg; auto.
  - intros x j k Hx Hj Hk HP. rewrite (obj_hessian_val n) by assumption.
    apply pderiv_ext with (f := fun y => vget j si * g (vmul y si) j); [intro; ring|].
    apply pderiv_eq with (d := vget j si * (tri (o_hr o) (o_hc o) (o_h o (vmul x si)) j k * vget k si)); [ring|].
    apply pderiv_scal. apply (pderiv_vmul (fun z => g z j)); [congruence | lia|]. apply Hh; auto.
Qed.
