(** Lemmas for whole problems, part 3: the pieces of a problem exist and have the right shapes. *)
From Verif Require Import Base RBase TreeModel UtilsModel UtilsProofs IoModel CollocModel CollocProps MeshModel MeshProofs MeshProps OcpModel OcpProofs OcpSpec OcpProps NlpModel NlpProofs NlpProofs2 NlpProps NlpProps2
  AlgModel AlgSpec AlgProofs AlgProps ConvModel ConvSpec ConvProps CyclicModel CyclicSpec CyclicProps ObjModel ObjProps BoundModel BoundSpec BoundProofs BoundProps ScaleModel ScaleSpec ScaleProofs ScaleProps SolverProofs BuildModel BuildSpec BuildProofs BuildProofs2.

Lemma or_nil_ok : forall A (r : result (list A)) v, r = Ok v -> or_nil r = v.
Proof. intros A r v ->. reflexivity. Qed.
Lemma make_con_parts : forall nin ncon f j h js hs,
  List.length (fst js) = List.length (snd js) -> Forall (fun r => (r < ncon)%nat) (fst js) -> Forall (fun r => (r < nin)%nat) (snd js) ->
  List.length (fst hs) = List.length (snd hs) -> Forall (fun r => (r < nin)%nat) (fst hs) -> Forall (fun r => (r < nin)%nat) (snd hs) ->
  (forall x, List.length x = nin -> List.length (f x) = ncon) -> (forall x, List.length x = nin -> List.length (j x) = List.length (fst js)) ->
  (forall x lam, List.length x = nin -> List.length lam = ncon -> List.length (h x lam) = List.length (fst hs)) ->
  exists c, make_con nin ncon f j h (Some js) (Some hs) = Ok c /\ con_arg c /\ c_con c = ones ncon /\ c_nin c = nin /\ c_ncon c = ncon /\ c_f c = f /\ c_j c = j /\ c_h c = h /\
    c_jr c = fst js /\ c_jc c = snd js /\ c_hr c = fst hs /\ c_hc c = snd hs.
Proof.
  intros. destruct (make_con_total nin ncon f j h js hs) as (c & E & W & E1 & E2 & E3 & R); [constructor; cbn; auto|].
  exists c. split; [assumption|]. split; [split; [assumption|rewrite E1, E3; apply repeat_length]|]. tauto.
Qed.

Lemma is_gradient_ext : forall n f f' g, (forall x, List.length x = n -> f' x = f x) -> is_gradient n f g -> is_gradient n f' g.
Proof. intros n f f' g E H x j Hx Hj. eapply pderiv_ext_len; [|apply H; assumption]. intros y Hy. symmetry. apply E. congruence. Qed.
Lemma is_hessian_ext : forall n f f' g, (forall x, List.length x = n -> f' x = f x) -> is_hessian n f g -> is_hessian n f' g.
Proof. intros n f f' g E (h & H1 & H2). exists h. split; [eapply is_gradient_ext; eassumption|assumption]. Qed.
Lemma is_jacobian_ext : forall n m f f' J J', (forall x, List.length x = n -> f' x = f x) -> (forall x i j, List.length x = n -> J' x i j = J x i j) -> is_jacobian n m f J -> is_jacobian n m f' J'.
Proof. intros n m f f' J J' E EJ H x i j Hx Hi Hj. rewrite EJ by assumption. eapply pderiv_ext_len; [|apply H; assumption]. intros y Hy. cbv beta. rewrite E by congruence. reflexivity. Qed.

Lemma make_obj_some : forall nin f g h hs, List.length (fst hs) = List.length (snd hs) -> Forall (fun r => (r < nin)%nat) (fst hs) -> Forall (fun r => (r < nin)%nat) (snd hs) ->
  (forall x, List.length x = nin -> List.length (g x) = nin) -> (forall x, List.length x = nin -> List.length (h x) = List.length (fst hs)) ->
  exists ob, make_obj nin f g h (Some hs) = Ok ob /\ obj_wf nin ob /\ o_f ob = f /\ o_g ob = g /\ o_h ob = h /\ o_hr ob = fst hs /\ o_hc ob = snd hs.
Proof.
  intros nin f g h hs L F1 F2 Hg Hh. set (ob0 := {| o_nin := nin; o_f := f; o_g := g; o_h := h; o_hr := fst hs; o_hc := snd hs; o_in := ones nin; o_hs := [] |}).
  assert (obj_wf nin ob0) as W by (constructor; auto). exists (orescaled ob0 (ones nin)). split; [|split; [constructor; cbn; auto|repeat split]].
  rewrite <- (obj_set_ok nin ob0 (ones nin) W (repeat_length _ _)). reflexivity.
Qed.
Section Pieces.
Variables (roots : list R -> list R) (tn : string) (tns : option nat) (n : nat) (st inp con : list string) (pts : option (list R)) (fixed : option R) (o : ocp).
Hypothesis B : built roots tn tns n st inp con pts fixed o.
Let op := oc_op o.

Lemma time_piece : (fixed <> None -> In "time" st) -> exists ob g, time_obj o = Ok ob /\ obj_wf (num_dec op) ob /\
  is_gradient (num_dec op) (o_f ob) (fun x j => vget j (g x)) /\ (forall x, List.length x = num_dec op -> o_g ob x = g x) /\ is_hessian (num_dec op) (o_f ob) (fun x => tri (o_hr ob) (o_hc ob) (o_h ob x)) /\
  forall x, List.length x = num_dec op -> time_spent o (oc_tr o) n fixed x (o_f ob x).
Proof using B.
  intro HT. pose proof (built_ok _ _ _ _ _ _ _ _ _ _ B) as (K & _ & _ & En & _ & _ & _ & Em & EF & _). unfold time_obj. rewrite EF. destruct fixed as [s|].
  - destruct (C42_time_fixed _ _ _ _ _ _ _ _ _ _ B (HT ltac:(discriminate))) as (f & g & H & Hg & Hh).
    destruct (make_obj_total (num_dec op) (fun x => or_zero (time_objective_fixed o x)) (fun x => or_nil (time_gradient_fixed o x)) (fun _ => [])) as (ob & E & W & F1 & F2 & F3 & F4 & F5 & F6); [|reflexivity|].
    { intros x Hx. destruct (H x Hx) as (_ & -> & L & _). exact L. }
    assert (forall x, List.length x = num_dec op -> o_f ob x = f x) as Ef. { intros x Hx. rewrite F1. destruct (H x Hx) as (-> & _). reflexivity. }
    exists ob, g. split; [exact E|]. split; [exact W|]. split; [apply (is_gradient_ext _ f); auto|]. split; [|split].
    + intros x Hx. rewrite F2. destruct (H x Hx) as (_ & -> & _). reflexivity.
    + rewrite F3, F4, F5. apply (is_hessian_ext _ f); auto.
    + intros x Hx. rewrite Ef by assumption. destruct (H x Hx) as (_ & _ & _ & t0 & t1 & V0 & V1 & ->). unfold time_spent, val. exists t0, t1. split; [assumption|]. split; [|reflexivity].
      unfold num_stages in V1. unfold num_intervals in En. rewrite En, Em in V1. unfold spi in V1. rewrite Nat.add_sub in V1. exact V1.
  - destruct (C42_time_scaled _ _ _ _ _ _ _ _ _ B) as (f & g & H & Hg & Hh).
    destruct (make_obj_total (num_dec op) (fun x => or_zero (time_objective_scaled o x)) (fun x => or_nil (time_gradient_scaled o x)) (fun _ => [])) as (ob & E & W & F1 & F2 & F3 & F4 & F5 & F6); [|reflexivity|].
    { intros x Hx. destruct (H x Hx) as (_ & _ & -> & L). exact L. }
    assert (forall x, List.length x = num_dec op -> o_f ob x = f x) as Ef. { intros x Hx. rewrite F1. destruct (H x Hx) as (-> & _). reflexivity. }
    exists ob, g. split; [exact E|]. split; [exact W|]. split; [apply (is_gradient_ext _ f); auto|]. split; [|split].
    + intros x Hx. rewrite F2. destruct (H x Hx) as (_ & _ & -> & _). reflexivity.
    + rewrite F3, F4, F5. apply (is_hessian_ext _ f); auto.
    + intros x Hx. rewrite Ef by assumption. destruct (H x Hx) as (_ & V & _). unfold scale_is in V. rewrite EF in V. exact V.
Qed.

Lemma penalty_piece : forall w, NoDup (keys w) -> incl (keys w) inp -> exists ob g, penalty_obj o w = Ok ob /\ obj_wf (num_dec op) ob /\
  is_gradient (num_dec op) (o_f ob) (fun x j => vget j (g x)) /\ (forall x, List.length x = num_dec op -> o_g ob x = g x) /\ is_hessian (num_dec op) (o_f ob) (fun x => tri (o_hr ob) (o_hc ob) (o_h ob x)) /\
  forall x, List.length x = num_dec op -> inputs_penalty o w x = Ok (o_f ob x).
Proof using B.
  intros w ND HI. destruct (C42_penalty_derivatives _ _ _ _ _ _ _ _ _ _ w B ND HI) as (f & g & h & rows & cols & H & ES & L1 & L2 & FR & FC & Hg & Hh).
  unfold penalty_obj. rewrite ES. cbn [bind]. fold op in FR, FC.
  destruct (make_obj_some (num_dec op) (fun x => or_zero (inputs_penalty o w x)) (fun x => or_nil (inputs_penalty_grad o w x)) (fun x => or_nil (inputs_penalty_hessian o w x)) (rows, cols)) as (ob & E & W & F1 & F2 & F3 & F4 & F5); cbn [fst snd]; auto; try congruence.
  - intros x Hx. destruct (H x Hx) as (_ & -> & L & _). exact L.
  - intros x Hx. destruct (H x Hx) as (_ & _ & _ & ->). cbn. congruence.
  - assert (forall x, List.length x = num_dec op -> o_f ob x = f x) as Ef. { intros x Hx. rewrite F1. destruct (H x Hx) as (-> & _). reflexivity. }
    exists ob, g. split; [exact E|]. split; [exact W|]. split; [apply (is_gradient_ext _ f); auto|]. split; [|split].
    + intros x Hx. rewrite F2. destruct (H x Hx) as (_ & -> & _). reflexivity.
    + rewrite F3, F4, F5. cbn [fst snd]. destruct Hh as (gg & G1 & G2). exists gg. split; [apply (is_gradient_ext _ f); auto|]. intros x j k Hx Hj Hk. destruct (H x Hx) as (_ & _ & _ & ->). now apply G2.
    + intros x Hx. rewrite Ef by assumption. apply (H x Hx).
Qed.

Lemma continuity_piece : exists c, continuity_con o = Ok c /\ con_arg c /\ c_nin c = num_dec op /\ c_ncon c = num_continuity_cons o /\ c_con c = ones (num_continuity_cons o) /\
  (forall x, List.length x = num_dec op -> continuity_constraints o x = Ok (c_f c x)) /\
  is_jacobian (num_dec op) (num_continuity_cons o) (c_f c) (fun x => tri (c_jr c) (c_jc c) (c_j c x)).
Proof using B.
  pose proof (built_ok _ _ _ _ _ _ _ _ _ _ B) as (K & _ & _ & En & _ & _ & _ & Em & EF & _).
  destruct (C25_jacobian _ _ _ _ _ _ _ _ _ _ B) as (rs & cs & vals & f & ES & HV & L1 & F1 & F2 & HJ). unfold continuity_con. rewrite ES. cbn [bind]. rewrite EF.
  assert (forall x, List.length x = num_dec op -> List.length (or_nil (continuity_constraints o x)) = num_continuity_cons o) as Lf.
  { intros x Hx. destruct (C24_entries _ _ _ _ _ _ _ _ _ _ x B Hx) as (q & s & -> & _ & L & _). exact L. }
  assert (forall x, List.length x = num_dec op -> List.length (or_nil (continuity_jacobian o x)) = List.length rs) as Lj.
  { intros x Hx. destruct (HV x Hx) as (-> & _ & L). exact L. }
  assert (forall c, c_f c = (fun x => or_nil (continuity_constraints o x)) -> c_j c = (fun x => or_nil (continuity_jacobian o x)) -> c_jr c = rs -> c_jc c = cs ->
    (forall x, List.length x = num_dec op -> continuity_constraints o x = Ok (c_f c x)) /\ is_jacobian (num_dec op) (num_continuity_cons o) (c_f c) (fun x => tri (c_jr c) (c_jc c) (c_j c x))) as Fin.
  { intros c Q1 Q2 Q3 Q4. split; [intros x Hx; rewrite Q1; destruct (HV x Hx) as (_ & -> & _); reflexivity|].
    rewrite Q3, Q4. apply (is_jacobian_ext _ _ f _ (fun x => tri rs cs (vals x)) _); [| |exact HJ].
    - intros x Hx. rewrite Q1. destruct (HV x Hx) as (_ & -> & _). reflexivity.
    - intros x i j Hx. rewrite Q2. destruct (HV x Hx) as (-> & _ & _). reflexivity. }
  destruct fixed as [s|].
  - unfold make_linear. destruct (make_con_parts (num_dec op) (num_continuity_cons o) (fun x => or_nil (continuity_constraints o x)) (fun x => or_nil (continuity_jacobian o x)) (fun _ _ => []) (rs, cs) ([], [])) as (c & E & W & Q1 & Q2 & Q3 & Q4 & Q5 & Q6 & Q7 & Q8 & _); try (solve [auto | constructor]).
    exists c. split; [exact E|]. split; [exact W|]. split; [exact Q2|]. split; [exact Q3|]. split; [exact Q1|]. apply Fin; auto.
  - destruct (C25_hessian _ _ _ _ _ _ _ _ _ B) as (hr & hc & hv & f' & EH & _ & Hh & _ & H1 & H2 & H3 & _). rewrite EH. cbn [bind].
    destruct (make_con_parts (num_dec op) (num_continuity_cons o) (fun x => or_nil (continuity_constraints o x)) (fun x => or_nil (continuity_jacobian o x)) (fun _ lam => or_nil (continuity_hessian o lam)) (rs, cs) (hr, hc)) as (c & E & W & Q1 & Q2 & Q3 & Q4 & Q5 & Q6 & Q7 & Q8 & _); auto.
    { intros x lam _ Hl. destruct (Hh lam Hl) as [-> L]. exact L. }
    exists c. split; [exact E|]. split; [exact W|]. split; [exact Q2|]. split; [exact Q3|]. split; [exact Q1|]. apply Fin; auto.
Qed.

Lemma cyclic_piece : forall excl cv, (forall nm, In nm st \/ In nm inp -> no_char dot nm = true) -> build_cyclic_vars o excl = Ok cv -> cyclic_pairs st inp excl <> [] ->
  exists c, cyclic_con o cv = Ok c /\ con_arg c /\ c_nin c = num_dec op /\ c_ncon c = List.length cv /\ c_con c = ones (List.length cv) /\
    (forall x, List.length x = num_dec op -> cyclic_constraint o cv x = Ok (c_f c x)) /\
    is_jacobian (num_dec op) (List.length cv) (c_f c) (fun x => tri (c_jr c) (c_jc c) (c_j c x)).
Proof using B.
  intros excl cv HD EC NE. destruct (C28_jacobian _ _ _ _ _ _ _ _ _ _ excl cv B HD EC NE) as (rs & cs & vals & f & ES & HV & L1 & F1 & F2 & HJ).
  unfold cyclic_con. rewrite ES. cbn [bind]. unfold make_linear. cbn [Datatypes.fst].
  assert (List.length cv = List.length (cyclic_pairs st inp excl)) as Lcv. { apply (proj1 (C28_variables _ _ _ _ _ _ _ _ _ _ excl B)) in EC. destruct EC as (_ & _ & ->). apply map_length. }
  assert (forall x y : list R, cyclic_jacobian o cv x = cyclic_jacobian o cv y) as CJ by reflexivity.
  destruct (make_con_parts (num_dec op) (List.length cv) (fun x => or_nil (cyclic_constraint o cv x)) (fun _ => or_nil (cyclic_jacobian o cv (ones (num_dec op)))) (fun _ _ => []) (rs, cs) ([], [])) as (c & E & W & Q1 & Q2 & Q3 & Q4 & Q5 & Q6 & Q7 & Q8 & _); try (solve [auto | constructor]).
  - intros x Hx. destruct (C28_values _ _ _ _ _ _ _ _ _ _ excl cv x B HD EC NE Hx) as (q & -> & L & _). cbn. congruence.
  - intros x Hx. destruct (HV (ones (num_dec op)) (repeat_length _ _)) as (_ & -> & L). exact L.
  - exists c. split; [exact E|]. split; [exact W|]. split; [exact Q2|]. split; [exact Q3|]. split; [exact Q1|]. split.
    + intros x Hx. rewrite Q4. destruct (HV x Hx) as (-> & _). reflexivity.
    + rewrite Q7, Q8. cbn [fst snd]. apply (is_jacobian_ext _ _ f _ (fun x => tri rs cs (vals x)) _); [| |exact HJ].
      * intros x Hx. rewrite Q4. destruct (HV x Hx) as (-> & _). reflexivity.
      * intros x i j Hx. rewrite Q5, (CJ _ x). destruct (HV x Hx) as (_ & -> & _). reflexivity.
Qed.
End Pieces.
