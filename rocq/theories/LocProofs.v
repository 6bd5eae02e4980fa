From Verif Require Import Base RBase UtilsModel UtilsProofs NlpModel NlpSpec NlpProofs NlpProofs2 NlpProps LocSpec.
Import ListNotations.

Lemma dlim_near : forall f g x d e, 0 < e -> (forall t, Rabs (t - x) < e -> f t = g t) -> derivable_pt_lim f x d -> derivable_pt_lim g x d.
Proof.
  intros f g x d e He E H eps Heps. destruct (H eps Heps) as [del Hd]. assert (0 < Rmin del e) as P by (apply Rmin_pos; [apply cond_pos|assumption]).
  exists (mkposreal _ P). intros h Hh L. cbn in L. rewrite <- (E (x + h)), <- (E x); [apply Hd; [assumption|]| |].
  - eapply Rlt_le_trans; [exact L|apply Rmin_l].
  - rewrite Rminus_diag_eq by reflexivity. rewrite Rabs_R0. assumption.
  - replace (x + h - x) with h by ring. eapply Rlt_le_trans; [exact L|apply Rmin_r].
Qed.
(** only the values on the domain matter *)
Lemma pderiv_dom : forall D f g n x j d, roomy n D -> List.length x = n -> D x -> (j < n)%nat -> (forall y, List.length y = n -> D y -> f y = g y) -> pderiv f x j d -> pderiv g x j d.
Proof.
  intros D f g n x j d RM L HD Hj E H. destruct (RM x j L HD Hj) as (e & He & HE). unfold pderiv in *. eapply dlim_near; [exact He| |exact H]. intros t Ht. cbn beta. apply E; [now rewrite upd_length|now apply HE].
Qed.
Lemma gradient_on_unique : forall D n f g g', gradient_on D n f g -> gradient_on D n f g' -> forall x j, List.length x = n -> D x -> (j < n)%nat -> g x j = g' x j.
Proof. intros D n f g g' H H' x j L HD Hj. eapply pderiv_unique; [apply H|apply H']; assumption. Qed.
Lemma gradient_on_ext : forall D n f f' g, roomy n D -> (forall x, List.length x = n -> D x -> f x = f' x) -> gradient_on D n f g -> gradient_on D n f' g.
Proof. intros D n f f' g RM E H x j L HD Hj. eapply pderiv_dom; eauto. Qed.

(** *** closure of second derivatives *)
Section H.
Variables (D : list R -> Prop) (T : nat -> nat -> Prop) (n : nat).
Hypothesis RM : roomy n D.
Lemma hd_ext : forall f f' H H', (forall x, List.length x = n -> D x -> f x = f' x) -> (forall x i j, List.length x = n -> D x -> T i j -> H x i j = H' x i j) -> hessian_on D T n f H -> hessian_on D T n f' H'.
Proof using RM.
  intros f f' H H' E E' (g & G & HH). exists g. split; [eapply gradient_on_ext; eassumption|]. intros x j k L HD Hj Hk HT. rewrite <- E' by assumption. now apply HH.
Qed.
Lemma hd_plus : forall f h H K, hessian_on D T n f H -> hessian_on D T n h K -> hessian_on D T n (fun x => f x + h x) (fun x i j => H x i j + K x i j).
Proof using.
  clear RM. intros f h H K (g & G & HH) (k & G' & HK). exists (fun x i => g x i + k x i). split.
  - intros x j L HD Hj. apply pderiv_plus; auto.
  - intros x i j L HD Hi Hj HT. apply (pderiv_plus (fun y => g y i) (fun y => k y i)); auto.
Qed.
Lemma hd_scal : forall f c H, hessian_on D T n f H -> hessian_on D T n (fun x => c * f x) (fun x i j => c * H x i j).
Proof using.
  clear RM. intros f c H (g & G & HH). exists (fun x i => c * g x i). split.
  - intros x j L HD Hj. apply pderiv_scal; auto.
  - intros x i j L HD Hi Hj HT. apply (pderiv_scal (fun y => g y i)); auto.
Qed.
Lemma hd_const : forall c, hessian_on D T n (fun _ => c) (fun _ _ _ => 0).
Proof using. clear RM. intro c. exists (fun _ _ => 0). split; [intros x j L HD Hj|intros x i j L HD Hi Hj HT]; exact (pderiv_const _ _ _). Qed.
Lemma hd_sum : forall A (F : A -> list R -> R) G l, (forall a, In a l -> hessian_on D T n (F a) (G a)) -> hessian_on D T n (fun x => rsum (map (fun a => F a x) l)) (fun x i j => rsum (map (fun a => G a x i j) l)).
Proof using.
  clear RM. intros A F G l; induction l as [|a l IH]; intro H; cbn [map rsum]; [apply hd_const|].
  apply (hd_plus (F a) (fun x => rsum (map (fun b => F b x) l))); [apply H; now left|]. apply IH. intros; apply H; now right.
Qed.
Lemma hd_terms : forall (F : bcon -> list R -> list R) (G : bcon -> list R -> list R -> nat -> nat -> R) cs lam,
  (forall c l, In c cs -> List.length l = c_ncon c -> hessian_on D T n (fun x => vdot l (F c x)) (G c l)) -> List.length lam = list_sum (map c_ncon cs) ->
  hessian_on D T n (fun x => con_terms (fun c l => vdot l (F c x)) cs lam) (fun x i j => con_terms (fun c l => G c l x i j) cs lam).
Proof using.
  clear RM. intros F G cs; induction cs as [|c r IH]; intros lam H Hl; simpl in *; [apply hd_const|].
  apply (hd_plus (fun x => vdot (firstn (c_ncon c) lam) (F c x)) (fun x => con_terms (fun c0 l => vdot l (F c0 x)) r (skipn (c_ncon c) lam))).
  - apply H; auto. rewrite firstn_length_le; lia.
  - apply IH; [intros; apply H; auto|]. rewrite skipn_length; lia.
Qed.
Lemma hd_of : forall f H, is_hessian_on T n f H -> hessian_on D T n f H.
Proof using. clear RM. intros f H (g & G & HH). exists g. split; [intros x j L _ Hj; now apply G|]. intros x j k L _ Hj Hk HT. now apply HH. Qed.
End H.
Lemma jd_of : forall D n m f J, is_jacobian n m f J -> jacobian_on D n m f J.
Proof. intros D n m f J H x i j L _ Hi Hj. now apply H. Qed.

(** *** scaled variables: the domain of the unscaled ones *)
Definition unscaled (D : list R -> Prop) (s : list R) : list R -> Prop := fun x => D (vmul x s).
Section R.
Variables (c : bcon) (si sc : list R).
Hypothesis W : con_wf c.
Hypothesis Hi : List.length si = c_nin c.
Hypothesis Hc : List.length sc = c_ncon c.
Variable D : list R -> Prop.
Lemma resc_jacobian_on : Forall (fun v => v <> 0) si -> Forall (fun v => v <> 0) sc -> jacobian_on D (c_nin c) (c_ncon c) (c_f c) (fun x => tri (c_jr c) (c_jc c) (c_j c x)) ->
  jacobian_on (unscaled D si) (c_nin c) (c_ncon c) (con_constraints (rescaled c si sc)) (fun x => tri (c_jr c) (c_jc c) (con_jacobian (rescaled c si sc) x)).
Proof using W Hi Hc.
  intros Ni Nc H x i j Hx HD Hil Hjl. rewrite resc_jacobian by assumption.
  apply pderiv_ext_len with (f := fun y => / vget i sc * vget i (c_f c (vmul y si))).
  { intros y Hy. rewrite resc_constraints by congruence. unfold Rdiv. ring. }
  apply pderiv_eq with (d := / vget i sc * (tri (c_jr c) (c_jc c) (c_j c (vmul x si)) i j * vget j si)); [unfold Rdiv; ring|].
  apply pderiv_scal. apply (pderiv_vmul (fun z => vget i (c_f c z))); [congruence | lia|]. apply H; [rewrite vmul_length; congruence | exact HD | assumption | assumption].
Qed.
Lemma resc_hessian_on : forall T lam, Forall (fun v => v <> 0) si -> List.length lam = c_ncon c ->
  (forall l, List.length l = c_ncon c -> hessian_on D T (c_nin c) (fun x => vdot l (c_f c x)) (fun x => tri (c_hr c) (c_hc c) (c_h c x l))) ->
  hessian_on (unscaled D si) T (c_nin c) (fun x => vdot lam (con_constraints (rescaled c si sc) x)) (fun x => tri (c_hr c) (c_hc c) (con_hessian (rescaled c si sc) x lam)).
Proof using W Hi Hc.
  intros T lam Ni Hl H. destruct (H (vdiv lam sc)) as (g & Hg & Hh); [rewrite vdiv_length; congruence|].
  exists (fun x j => g (vmul x si) j * vget j si). split.
  - intros x j Hx HD Hj. apply pderiv_ext_len with (f := fun y => vdot (vdiv lam sc) (c_f c (vmul y si))).
    { intros y Hy. unfold con_constraints. simpl. now rewrite vdot_vdiv. }
    apply (pderiv_vmul (fun z => vdot (vdiv lam sc) (c_f c z))); [congruence | lia|]. apply Hg; [rewrite vmul_length; congruence | exact HD | assumption].
  - intros x j k Hx HD Hj Hk HP. rewrite resc_hessian by assumption.
    apply pderiv_ext with (f := fun y => vget j si * g (vmul y si) j); [intro; ring|].
    apply pderiv_eq with (d := vget j si * (tri (c_hr c) (c_hc c) (c_h c (vmul x si) (vdiv lam sc)) j k * vget k si)); [ring|].
    apply pderiv_scal. apply (pderiv_vmul (fun z => g z j)); [congruence | lia|]. apply Hh; [rewrite vmul_length; congruence | exact HD | assumption | assumption | assumption].
Qed.
End R.
Lemma unscaled_roomy : forall n D s, List.length s = n -> Forall (fun v => v <> 0) s -> roomy n D -> roomy n (unscaled D s).
Proof.
  intros n D s Ls Ns RM x k L HD Hk. unfold unscaled in *. destruct (RM (vmul x s) k ltac:(rewrite vmul_length; congruence) HD Hk) as (e & He & HE).
  pose proof (Forall_vget _ s k Ns ltac:(lia)) as Nz. cbv beta in Nz. pose proof (Rabs_pos_lt _ Nz) as Pz. exists (e / Rabs (vget k s)). split; [now apply Rdiv_lt_0_compat|].
  intros t Ht. rewrite vmul_upd by congruence. apply HE. rewrite vget_vmul by congruence. replace (t * vget k s - vget k x * vget k s) with ((t - vget k x) * vget k s) by ring.
  rewrite Rabs_mult. apply (Rmult_lt_compat_r (Rabs (vget k s))) in Ht; [|assumption]. replace (e / Rabs (vget k s) * Rabs (vget k s)) with e in Ht by (field; now apply Rgt_not_eq). exact Ht.
Qed.

(** *** the problem *)
Theorem prob_jacobian_on : forall D n p, reachable n p -> p_cons p <> [] -> Forall (fun v => v <> 0) (p_scales p) ->
  (forall c, In c (values (p_cons p)) -> Forall (fun v => v <> 0) (c_con c) /\ jacobian_on D n (c_ncon c) (c_f c) (fun x => tri (c_jr c) (c_jc c) (c_j c x))) ->
  exists G J rs cs, prob_jacobianstructure p = Ok (rs, cs) /\
    (forall x, List.length x = n -> prob_constraints p x = Ok (G x) /\ prob_jacobian p x = Ok (J x)) /\
    jacobian_on (unscaled D (p_scales p)) n (num_con p) G (fun x => tri rs cs (J x)).
Proof.
  intros DD0 n p H Hne Ns D. destruct (reachable_inv n p H) as [I E].
  assert (values (p_cons p) <> []) as Hv by (unfold values; destruct (p_cons p); simpl; congruence).
  destruct (C16_jacobian_stack n p (ones n) H Hne (repeat_length _ _)) as (rs & cs & _ & Es & _ & _ & _).
  exists (fun x => concat (map (fun c => con_constraints c x) (values (p_cons p)))), (fun x => concat (map (fun c => con_jacobian c x) (values (p_cons p)))), rs, cs.
  split; [assumption|]. split.
  - intros x Hx. split; apply hstackl_ne; intro C; apply Hv; eapply map_eq_nil; exact C.
  - intros x r j Hx HD Hr Hj. unfold num_con in Hr. destruct (locate _ _ Hr) as (k & c & i & Hk & Hi & ->).
    assert (In c (values (p_cons p))) as Hin by (eapply nth_error_In; eauto).
    assert (forall c, In c (values (p_cons p)) -> con_wf c /\ List.length (c_con c) = c_ncon c /\ c_nin c = n /\ c = rescaled c (p_scales p) (c_con c)) as Q.
    { intros d Hd. apply in_map_iff in Hd. destruct Hd as ([k' c'] & Ek & Hin3). simpl in Ek. subst c'.
      pose proof (pi_c p I) as F. rewrite Forall_forall in F. destruct (F _ Hin3) as ([W Hl] & Hn & Ec). simpl in *.
      split; [assumption|]. split; [assumption|]. split; [congruence|assumption]. }
    destruct (Q c Hin) as (W & Lc & Nc & Ec). pose proof (pi_s p I) as Ls.
    destruct (C16_jacobian_stack n p x H Hne Hx) as (rs2 & cs2 & js & Es2 & Ej & Hst & _).
    rewrite Es in Es2. inversion Es2; subst rs2 cs2.
    assert (js = concat (map (fun c => con_jacobian c x) (values (p_cons p)))) as <-.
    { unfold prob_jacobian in Ej. rewrite hstackl_ne in Ej by (intro C; apply Hv; eapply map_eq_nil; exact C). now inversion Ej. }
    unfold off. rewrite (Hst k c i j Hk Hi).
    apply pderiv_ext_len with (f := fun y => vget i (con_constraints c y)).
    + intros y Hy. symmetry. apply concat_get with (F := fun c => con_constraints c y); auto.
      apply Forall_forall. intros d Hd. destruct (Q d Hd) as (Wd & Ld & Nd & Ed). apply (piece_lens d (p_scales p) y Wd ltac:(congruence) Ld Ed ltac:(congruence)).
    + destruct (D c Hin) as [Dc DJ]. rewrite <- Nc in DJ.
      pose proof (resc_jacobian_on c (p_scales p) (c_con c) W ltac:(congruence) Lc DD0 Ns Dc DJ) as R. rewrite <- Ec in R. apply R; congruence || assumption.
Qed.

Theorem prob_hessian_on : forall D n p fac lam, roomy n D -> reachable n p -> p_cons p <> [] -> p_objs p <> [] ->
  (p_triu p = None) -> Forall (fun v => v <> 0) (p_scales p) -> List.length lam = num_con p ->
  (forall c l, In c (values (p_cons p)) -> List.length l = c_ncon c ->
     hessian_on D (fun i j => (i <= j)%nat) n (fun x => vdot l (c_f c x)) (fun x => tri (c_hr c) (c_hc c) (c_h c x l))) ->
  (forall o, In o (values (p_objs p)) ->
     is_hessian_on (fun i j => (i <= j)%nat) n (o_f o) (fun x => tri (o_hr o) (o_hc o) (o_h o x))) ->
  exists L V rs cs, snd (prob_hessianstructure p) = Ok (rs, cs) /\
    (forall x, List.length x = n -> snd (prob_hessian p x lam fac) = Ok (V x) /\
       exists f g, prob_objective p x = Ok f /\ prob_constraints p x = Ok g /\ L x = fac * f + vdot lam g) /\
    hessian_on (unscaled D (p_scales p)) (fun i j => (i <= j)%nat) n L (fun x => tri rs cs (V x)).
Proof.
  intros DD0 n p fac lam RM H Hnc Hno Ht Ns Hl Dc Do. destruct (reachable_inv n p H) as [I E].
  assert (values (p_cons p) <> []) as Hv by (unfold values; destruct (p_cons p); simpl; congruence).
  assert (values (p_objs p) <> []) as Hvo by (unfold values; destruct (p_objs p); simpl; congruence).
  pose (HV := fun x => match snd (prob_hessian p x lam fac) with Ok v => v | Raise _ => [] end).
  destruct (snd (prob_hessianstructure p)) as [[rs cs]|e] eqn:Es.
  2:{ exfalso. destruct (hess_value p (ones n) lam fac I) as (vs & rs & cs & _ & V2 & _); auto;
      [rewrite E; apply repeat_length|]. rewrite Es in V2; discriminate. }
  exists (fun x => fac * rsum (map (fun o => obj_objective o x) (values (p_objs p)))
               + vdot lam (concat (map (fun c => con_constraints c x) (values (p_cons p))))), HV, rs, cs.
  split; [reflexivity|]. split.
  - intros x Hx. destruct (hess_value p x lam fac I) as (vs & rs' & cs' & V1 & V2 & _); auto; [congruence|].
    split; [unfold HV; rewrite V1; reflexivity|].
    exists (rsum (map (fun o => obj_objective o x) (values (p_objs p)))), (concat (map (fun c => con_constraints c x) (values (p_cons p)))).
    split; [|split].
    + unfold prob_objective. rewrite hstackl_ne by (intro C; apply Hvo; eapply map_eq_nil; exact C). simpl. f_equal. f_equal.
      clear. induction (values (p_objs p)); simpl; congruence.
    + apply hstackl_ne; intro C; apply Hv; eapply map_eq_nil; exact C.
    + reflexivity.
  - assert (forall c, In c (values (p_cons p)) -> con_wf c /\ List.length (c_con c) = c_ncon c /\ c_nin c = n /\ c = rescaled c (p_scales p) (c_con c)) as Q.
    { intros d Hd. apply in_map_iff in Hd. destruct Hd as ([k' c'] & Ek & Hin3). simpl in Ek. subst c'.
      pose proof (pi_c p I) as F. rewrite Forall_forall in F. destruct (F _ Hin3) as ([W Hlc] & Hn & Ec). simpl in *.
      split; [assumption|]. split; [assumption|]. split; [congruence|assumption]. }
    pose proof (pi_s p I) as Ls. assert (roomy n (unscaled DD0 (p_scales p))) as RM2 by (apply unscaled_roomy; [congruence|assumption|assumption]).
    apply (hd_ext _ _ _ RM2) with
      (f := fun x => fac * rsum (map (fun o => obj_objective o x) (values (p_objs p)))
                   + con_terms (fun c l => vdot l (con_constraints c x)) (values (p_cons p)) lam)
      (H := fun x i j => fac * rsum (map (fun o => tri (o_hr o) (o_hc o) (obj_hessian o x) i j) (values (p_objs p)))
                       + con_terms (fun c l => tri (c_hr c) (c_hc c) (con_hessian c x l) i j) (values (p_cons p)) lam).
    + intros x Hx _. f_equal. symmetry. apply (vdot_slices (fun c => con_constraints c x)); [|exact Hl].
      intros c Hc. destruct (Q c Hc) as (W & Lc & Nc & Ec). apply (piece_lens c (p_scales p) x W ltac:(congruence) Lc Ec ltac:(congruence)).
    + intros x i j Hx _ Hij. destruct (hess_value p x lam fac I) as (vs & rs' & cs' & V1 & V2 & _ & _ & V5); auto; [congruence|].
      rewrite Es in V2. inversion V2; subst rs' cs'. unfold HV. rewrite V1, V5. apply Nat.leb_le in Hij. rewrite Hij. ring.
    + apply (hd_plus _ _ n (fun x => fac * rsum (map (fun o => obj_objective o x) (values (p_objs p))))).
      * apply hd_of. apply (hess_on_scal _ n fac (fun x => rsum (map (fun o => obj_objective o x) (values (p_objs p))))). apply hess_on_sum.
        intros o Ho. apply in_map_iff in Ho as Ho'. destruct Ho' as ([k o'] & Ek & Hin). simpl in Ek. subst o'.
        pose proof (pi_o p I) as F. rewrite Forall_forall in F. destruct (F _ Hin) as (W & Eo). simpl in *.
        assert (is_hessian_on (fun i j => (i <= j)%nat) n (obj_objective (orescaled o (p_scales p)))
          (fun x => tri (o_hr o) (o_hc o) (obj_hessian (orescaled o (p_scales p)) x))) as R.
        { apply obj_is_hessian; [congruence|congruence|assumption|]. apply Do. assumption. }
        rewrite <- Eo in R. exact R.
      * apply (hd_terms _ _ n (fun c x => con_constraints c x) (fun c l x i j => tri (c_hr c) (c_hc c) (con_hessian c x l) i j)); [|exact Hl].
        intros c l Hc Hlen. destruct (Q c Hc) as (W & Lc & Nc & Ec).
        assert (hessian_on (unscaled DD0 (p_scales p)) (fun i j => (i <= j)%nat) (c_nin c) (fun x => vdot l (con_constraints (rescaled c (p_scales p) (c_con c)) x))
           (fun x => tri (c_hr c) (c_hc c) (con_hessian (rescaled c (p_scales p) (c_con c)) x l))) as R.
        { apply resc_hessian_on; auto; [congruence|]. intros l' Hl'. rewrite Nc. now apply Dc. }
        rewrite <- Ec, Nc in R. exact R.
Qed.
