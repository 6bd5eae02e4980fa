(** C53, continued: the total time, limits of the flights, the derivatives, and examples. *)
From Verif Require Import Base RBase TreeModel UtilsModel UtilsProofs IoModel CollocModel CollocProofs CollocProps MeshModel MeshProps OcpModel OcpSpec OcpProofs OcpProps NlpModel NlpSpec AlgModel AlgSpec ConvModel ConvSpec CyclicSpec BoundModel BoundSpec ScaleModel ScaleSpec ObjModel ObjSpec ObjProps
  BuildModel BuildSpec BuildProofs BuildProofs4 BuildProofs5 BuildProofs6 BuildProps BuildProps2 BuildProps3 BuildProps4 GuessProofs LapModel LapSpec DroneModel FlightModel FlightSpec FlightProofs FlightProps FlightProps2.

(** ** [get_total_time] *)
Theorem C53_total_time : forall roots jac hess js hs n pts scales g cs a x k, shapes jac hess js hs -> oracle_ok roots None -> (1 <= n)%nat ->
  history roots (drone_model jac hess js hs) (default_drone n pts scales) None g cs = Ok a -> Forall tuning cs -> logs n (params_asked g cs) (a_o a) x k -> get_total_time a x = Ok (f_T k).
Proof.
  intros roots jac hess js hs n pts scales g cs a x k HS HO Hn HH HT HL. destruct (tuning_plain cs HT) as (HP & _ & _). pose proof (drone_model_ok jac hess js hs HS) as MO.
  destruct (the_facts roots R (drone_model jac hess js hs) (default_drone n pts scales) None g cs a HO Hn (ltac:(discriminate)) MO HH HP) as (o & fm & pl & ops & h & F).
  pose proof (fa_o _ _ _ _ _ _ _ _ _ _ _ _ _ F) as EO. subst o. pose proof (fa_built _ _ _ _ _ _ _ _ _ _ _ _ _ F) as BU.
  destruct (C42_time_scaled _ _ _ _ _ _ _ _ _ BU) as (f & gr & H & _). destruct (H x (lg_len _ _ _ _ _ HL)) as (E & SI & _). unfold get_total_time. rewrite E. f_equal.
  destruct (built_ok _ _ _ _ _ _ _ _ _ _ BU) as (_ & _ & _ & _ & _ & _ & _ & _ & EF & _). unfold scale_is in SI. rewrite EF in SI. exact (length_fun None _ _ _ _ SI (lg_T _ _ _ _ _ HL)).
Qed.
Print Assumptions C53_total_time.

(** ** What the limits imply *)
(** a quantity that changes at a bounded rate *)
Lemma rate_bound : forall n pts k q rate c, moves n pts k q rate -> 0 <= f_T k -> (forall i, (i < n)%nat -> nth i pts 0 <= nth (S i) pts 0) -> (forall s, (s <= n)%nat -> rate s <= c) ->
  q n - q 0%nat <= c * f_T k * (nth n pts 0 - nth 0 pts 0).
Proof.
  intros n pts k q rate c HM HT HI HR. assert (forall m, (m <= n)%nat -> q m - q 0%nat <= c * f_T k * (nth m pts 0 - nth 0 pts 0)) as H; [|apply H; lia].
  induction m as [|m IH]; intro Hm; [rewrite !Rminus_eq_0; lra|]. specialize (IH ltac:(lia)). pose proof (HM m ltac:(lia)) as E. pose proof (HI m ltac:(lia)) as D. pose proof (HR m ltac:(lia)) as R1. pose proof (HR (S m) ltac:(lia)) as R2.
  assert ((nth (S m) pts 0 - nth m pts 0) * f_T k * ((rate m + rate (S m)) / 2) <= (nth (S m) pts 0 - nth m pts 0) * f_T k * c). { apply Rmult_le_compat_l; [apply Rmult_le_pos; lra|lra]. } lra.
Qed.
(** The looping takes at least pi/5 seconds on the default points: it needs a full turn and the angular speed is limited to 10.  For other points, the fraction of time they span counts. *)
Theorem C53_slow : forall n pl g k, (1 <= n)%nat -> flight n pl g k ->
  (points_used n None pl -> PI / 5 <= f_T k) /\ ((forall i, (i < n)%nat -> nth i pl 0 <= nth (S i) pl 0) -> PI / 5 <= f_T k * (nth n pl 0 - nth 0 pl 0)).
Proof.
  intros n pl g k Hn F. pose proof (fl_time _ _ _ _ F) as FT.
  assert ((forall i, (i < n)%nat -> nth i pl 0 <= nth (S i) pl 0) -> PI / 5 <= f_T k * (nth n pl 0 - nth 0 pl 0)) as A.
  { intro HI. pose proof (rate_bound n pl k (f_th k) (f_om k) 10 (fl_th _ _ _ _ F) ltac:(lra) HI) as H. assert (forall s, (s <= n)%nat -> f_om k s <= 10) as HO. { intros s Hs. pose proof (fl_limits _ _ _ _ F s Hs). tauto. }
    specialize (H HO). destruct (fl_start _ _ _ _ F) as (_ & _ & _ & _ & E0). destruct (fl_end _ _ _ _ F) as (_ & _ & _ & _ & E1). rewrite E0, E1 in H. lra. }
  split; [|exact A]. intros [_ HP]. assert (0 < INR n) as PN by (apply lt_0_INR; lia).
  specialize (A ltac:(intros i Hi; rewrite !HP by lia; apply Rmult_le_compat_r; [left; now apply Rinv_0_lt_compat|apply le_INR; lia])). rewrite !HP in A by lia. cbn [INR] in A. unfold Rdiv in A at 2 3. rewrite Rinv_r in A by lra. lra.
Qed.
Print Assumptions C53_slow.
(** With a gravity above the largest thrust, no flight exists: the speed at the end cannot be that at the start. *)
Theorem C53_too_heavy : forall n pl g k, (1 <= n)%nat -> 20 < g -> (forall i, (i < n)%nat -> nth i pl 0 < nth (S i) pl 0) -> ~ flight n pl g k.
Proof.
  intros n pl g k Hn Hg HI F. pose proof (fl_time _ _ _ _ F) as FT.
  assert (forall s, (s <= n)%nat -> f_f k s * cos (f_th k s) - g <= 20 - g) as HR.
  { intros s Hs. pose proof (fl_limits _ _ _ _ F s Hs) as (_ & _ & _ & _ & _ & L & _). pose proof (COS_bound (f_th k s)). assert (f_f k s * cos (f_th k s) <= f_f k s * 1) by (apply Rmult_le_compat_l; lra). lra. }
  pose proof (rate_bound n pl k (f_vz k) _ (20 - g) (fl_vz _ _ _ _ F) ltac:(lra) ltac:(intros i Hi; left; now apply HI) HR) as H.
  destruct (fl_start _ _ _ _ F) as (_ & _ & _ & E0 & _). destruct (fl_end _ _ _ _ F) as (_ & _ & _ & E1 & _). rewrite E0, E1 in H.
  assert (forall m, (m <= n)%nat -> nth 0 pl 0 <= nth m pl 0 /\ ((0 < m)%nat -> nth 0 pl 0 < nth m pl 0)) as MO.
  { induction m as [|m IH]; intro Hm; [split; [lra|lia]|]. destruct (IH ltac:(lia)) as [A _]. pose proof (HI m ltac:(lia)). split; [lra|intros _; lra]. }
  pose proof (proj2 (MO n ltac:(lia)) ltac:(lia)) as D. assert (0 < (g - 20) * f_T k * (nth n pl 0 - nth 0 pl 0)). { apply Rmult_lt_0_compat; [apply Rmult_lt_0_compat; lra|lra]. } lra.
Qed.
Print Assumptions C53_too_heavy.

(** ** The derivatives given to IPOPT are those of its objective and constraints *)
Theorem C53_derivatives : forall roots jac hess js hs n pts scales g cs a, shapes jac hess js hs -> oracle_ok roots None -> (1 <= n)%nat ->
  let M := drone_model jac hess js hs in history roots M (default_drone n pts scales) None g cs = Ok a -> Forall tuning cs -> Forall (fun c => 0 < sc_v c) (scales_asked scales cs) ->
  model_derivatives M ["sin_theta"] ->
  let N := num_dec (oc_op (a_o a)) in
  exists pr, problem_of M a = Ok pr /\ p_n pr = N /\
  exists F G C J jr jc, prob_jacobianstructure pr = Ok (jr, jc) /\
    (forall x, List.length x = N -> prob_objective pr x = Ok (F x) /\ prob_gradient pr x = Ok (G x) /\ prob_constraints pr x = Ok (C x) /\ prob_jacobian pr x = Ok (J x)) /\
    is_gradient N F (fun x j => vget j (G x)) /\ is_jacobian N (num_con pr) C (fun x => tri jr jc (J x)) /\
    forall fac lam, List.length lam = num_con pr -> exists V hr hc, snd (prob_hessianstructure pr) = Ok (hr, hc) /\
      (forall x, List.length x = N -> snd (prob_hessian pr x lam fac) = Ok (V x)) /\
      exists g, is_gradient N (fun x => fac * F x + vdot lam (C x)) g /\ forall x i j, List.length x = N -> (i < N)%nat -> (j < N)%nat -> (i <= j)%nat -> pderiv (fun y => g y i) x j (tri hr hc (V x) i j).
Proof.
  intros roots jac hess js hs n pts scales g cs a HS HO Hn M HH HT HSc MD N. destruct (tuning_plain cs HT) as (HP & _ & _). pose proof (drone_model_ok jac hess js hs HS) as MO.
  apply (C51_derivatives roots R M (default_drone n pts scales) None g cs a); auto; try discriminate; try congruence; (right; intros p ds di m m'; reflexivity).
Qed.
Print Assumptions C53_derivatives.

(** ** Examples *)
(** the derivatives of the drone's equations, by hand *)
Definition hand_jac (_ : list string) (w : list R) (_ g : R) : list R :=
  [1; -1; vget 5 w * cos (vget 4 w); sin (vget 4 w); -1; 1; -1; vget 5 w * (- sin (vget 4 w)); cos (vget 4 w); -1; 1; -1; cos (vget 4 w); -1].
Definition hand_js (_ : list string) : list nat * list nat := ([0; 0; 1; 1; 1; 2; 2; 3; 3; 3; 4; 4; 5; 5]%nat, [1; 7; 4; 5; 8; 3; 9; 4; 5; 10; 6; 11; 4; 12]%nat).
Definition hand_hess (_ : list string) (w l : list R) (_ g : R) : list R :=
  [- vget 1 l * vget 5 w * sin (vget 4 w) - vget 3 l * vget 5 w * cos (vget 4 w) - vget 5 l * sin (vget 4 w); vget 1 l * cos (vget 4 w) - vget 3 l * sin (vget 4 w)].
Definition hand_hs (_ : list string) : list nat * list nat := ([4; 4]%nat, [4; 5]%nat).
Definition hand_drone : smodel R := drone_model hand_jac hand_hess hand_js hand_hs.
Lemma hand_shapes : shapes hand_jac hand_hess hand_js hand_hs.
Proof. cbv zeta. unfold shapes. cbn. repeat split; repeat constructor; lia. Qed.
Lemma pderiv_sin : forall f x j d, pderiv f x j d -> pderiv (fun w => sin (f w)) x j (d * cos (f x)).
Proof.
  intros f x j d H. unfold pderiv in *. pose proof (derivable_pt_lim_comp (fun t => f (upd j t x)) sin (vget j x) d _ H (derivable_pt_lim_sin _)) as K.
  rewrite upd_self in K. rewrite Rmult_comm. exact K.
Qed.
Lemma pderiv_cos : forall f x j d, pderiv f x j d -> pderiv (fun w => cos (f w)) x j (- (d * sin (f x))).
Proof.
  intros f x j d H. unfold pderiv in *. pose proof (derivable_pt_lim_comp (fun t => f (upd j t x)) cos (vget j x) d _ H (derivable_pt_lim_cos _)) as K.
  rewrite upd_self in K. replace (- (d * sin (f x))) with (- sin (f x) * d) by ring. exact K.
Qed.
