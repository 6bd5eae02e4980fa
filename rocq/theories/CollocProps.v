(** Property theorems C20-C22 (collocation matrices, LGR points, transcription residuals). *)
From Verif Require Import Base RBase CollocModel CollocProofs CollocProofs2.
From Coq Require Import Sorted.

(** *** C20 *)
(** L_i(x_j) = [i = j] *)
Theorem C20_kronecker : forall support i j, NoDup support -> (i < List.length support)%nat -> (j < List.length support)%nat ->
  peval (make_lagrange_polynomial support i) (vget j support) = if Nat.eqb i j then 1 else 0.
Proof. exact basis_kron. Qed.
Print Assumptions C20_kronecker.

(** interpolation reproduces every polynomial with at most n coefficients (degree < n), everywhere *)
Theorem C20_interpolation_exact : forall support q t, NoDup support -> (List.length q <= List.length support)%nat ->
  rsum (map (fun i => peval q (vget i support) * peval (make_lagrange_polynomial support i) t) (seq 0 (List.length support))) = peval q t.
Proof. intros. now apply interp_exact. Qed.
Print Assumptions C20_interpolation_exact.

Lemma vdot_seq : forall n a b, List.length a = n -> List.length b = n -> vdot a b = rsum (map (fun j => vget j a * vget j b) (seq 0 n)).
Proof.
  intros n a; revert n; induction a as [|x a IH]; intros n b La Lb; destruct b as [|y b]; simpl in *; subst; try discriminate; auto.
  inversion Lb as [E]. simpl. unfold vdot, vmul in *. simpl. rewrite (IH (List.length a) b eq_refl E). rewrite <- seq_shift, map_map, E. reflexivity.
Qed.
Lemma diffm_row_len : forall x ev i, (i < List.length ev)%nat -> List.length (nth i (build_lagrange_differential_matrix x ev) []) = List.length x.
Proof.
  intros x ev i Hi. unfold build_lagrange_differential_matrix, make_lagrange_basis. rewrite (nth_map_in _ _ _ _ _ _ 0) by assumption.
  now rewrite !map_length, seq_length.
Qed.
Lemma intm_row_len : forall x ev i, (i < List.length ev)%nat -> List.length (nth i (build_lagrange_integration_matrix x ev) []) = List.length x.
Proof.
  intros x ev i Hi. unfold build_lagrange_integration_matrix, make_lagrange_basis. rewrite (nth_map_in _ _ _ _ _ _ 0) by assumption.
  now rewrite !map_length, seq_length.
Qed.

(** row i of the differentiation matrix times the nodal values of q is q'(ev_i) *)
Theorem C20_differentiation_exact : forall support ev q i, NoDup support -> (List.length q <= List.length support)%nat -> (i < List.length ev)%nat ->
  List.length (build_lagrange_differential_matrix support ev) = List.length ev /\
  derivable_pt_lim (peval q) (vget i ev) (vdot (nth i (build_lagrange_differential_matrix support ev) []) (map (peval q) support)).
Proof.
  intros x ev q i Hn Hq Hi. split; [unfold build_lagrange_differential_matrix; apply map_length|].
  rewrite (vdot_seq (List.length x)); [|now apply diffm_row_len|apply map_length].
  eapply dlim_ext; [|eapply dlim_eq; [|apply (diffm_interp x ev (fun j => peval q (vget j x)) i Hi)]].
  - intro t. now apply interp_exact.
  - apply rsum_ext. intros j Hj. apply in_seq in Hj. unfold mget. f_equal. unfold vget at 2. symmetry. apply nth_map_in. lia.
Qed.
Print Assumptions C20_differentiation_exact.

(** row i of the integration matrix times the nodal values of q is the integral of q from support[0] to ev_i,
    i.e. the increment of any antiderivative F of q *)
Theorem C20_integration_exact : forall support ev q F i, NoDup support -> (List.length q <= List.length support)%nat -> (i < List.length ev)%nat ->
  (forall t, derivable_pt_lim F t (peval q t)) ->
  vdot (nth i (build_lagrange_integration_matrix support ev) []) (map (peval q) support) = F (vget i ev) - F (vget 0 support).
Proof.
  intros x ev q F i Hn Hq Hi HF.
  rewrite (vdot_seq (List.length x)); [|now apply intm_row_len|apply map_length].
  rewrite <- (intm_interp x ev (fun j => peval q (vget j x)) i F Hi).
  - apply rsum_ext. intros j Hj. apply in_seq in Hj. unfold mget. f_equal. unfold vget at 1. apply nth_map_in. lia.
  - intro t. rewrite interp_exact by assumption. apply HF.
Qed.
Print Assumptions C20_integration_exact.

Example C20_nonvacuous : NoDup [0; 1/3; 1] /\ (List.length [2; -1; 5]%R <= 3)%nat /\
  peval [2; -1; 5] (1/2) = 2 + (1/2) * (-1 + (1/2) * (5 + (1/2) * 0)) /\ mget 0 1 (build_lagrange_differential_matrix [0; 1/3; 1] [1]) = - (9/2).
Proof.
  split. { constructor; [simpl; intros [|[|[]]]; lra|]. constructor; [simpl; intros [|[]]; lra|]. constructor; [simpl; tauto|constructor]. }
  split; [simpl; lia|]. split; [reflexivity|].
  unfold mget, build_lagrange_differential_matrix, make_lagrange_basis, make_lagrange_polynomial, lagrange, lag_term, pmul_lin, pscale, vget. cbn. field.
Qed.

(** *** C21 *)
(** The root finder is assumed to return the real roots in ascending order; such an answer exists,
    is unique and has N elements for every N. *)
Definition lgr_coef (N : nat) : list R := repeat 0 (N - 1) ++ [1; 1].
Definition roots_correct (roots : list R -> list R) (coef : list R) : Prop := real_roots_of (legval coef) (roots coef).

Lemma real_roots_ext : forall f g l, (forall t, f t = g t) -> real_roots_of f l -> real_roots_of g l.
Proof. intros f g l E [A B]. split; [assumption|]. intro t. rewrite B, E. tauto. Qed.

Theorem C21_roots_exist : forall N, (1 <= N)%nat -> exists l, List.length l = N /\ real_roots_of (legval (lgr_coef N)) l /\
  forall m, real_roots_of (legval (lgr_coef N)) m -> m = l.
Proof.
  intros N HN. destruct (lgr_roots_exist N HN) as (l & L & Hl). exists l. split; [assumption|].
  assert (real_roots_of (legval (lgr_coef N)) l) as Hl' by (eapply real_roots_ext; [|exact Hl]; intro t; symmetry; now apply legval_char).
  split; [assumption|]. intros m Hm. eapply real_roots_unique; eauto.
Qed.
Print Assumptions C21_roots_exist.

Lemma sorted_opp_rev : forall l, StronglySorted Rlt l -> StronglySorted Rlt (map Ropp (rev l)).
Proof.
  intros l H; induction H as [|a l H IH F]; simpl; [constructor|]. rewrite map_app. simpl.
  assert (Forall (fun x => x < - a) (map Ropp (rev l))) as F'.
  { apply Forall_map. apply Forall_rev. eapply Forall_impl; [|exact F]. simpl; intros; lra. }
  clear -IH F'. induction (map Ropp (rev l)) as [|b m IHm]; simpl; [repeat constructor|]. inversion IH; subst. inversion F'; subst.
  constructor; [now apply IHm|]. apply Forall_app. split; [assumption|repeat constructor; assumption].
Qed.
Lemma sorted_last : forall l z, StronglySorted Rlt l -> In z l -> Forall (fun x => x <= z) l -> last l 0 = z.
Proof.
  intros l z H Hin F; induction H as [|a l H IH Fa]; [contradiction|]. destruct l as [|b l].
  - destruct Hin as [->|[]]. reflexivity.
  - change (last (b :: l) 0 = z). apply IH; [|inversion F; assumption]. destruct Hin as [->|]; [|assumption].
    inversion F; inversion H3; inversion Fa; subst. lra.
Qed.

Lemma lgr_points : forall roots N, (1 <= N)%nat -> roots_correct roots (lgr_coef N) ->
  exists pts, get_collocation_points roots N SchemeLGR = Ok pts /\ List.length pts = N /\ StronglySorted Rlt pts /\
    Forall (fun p => -1 < p <= 1) pts /\ last pts 0 = 1 /\ (forall t, In t pts <-> legP (N - 1) (- t) + legP N (- t) = 0).
Proof.
  intros roots N HN HR. unfold get_collocation_points. destruct (Nat.ltb_spec N 1); [lia|].
  eexists; split; [reflexivity|]. fold (lgr_coef N).
  assert (real_roots_of (lgr_char N) (roots (lgr_coef N))) as HC by (eapply real_roots_ext; [|exact HR]; intro; now apply legval_char).
  destruct (lgr_roots_exist N HN) as (l & L & Hl). rewrite (real_roots_unique _ _ _ HC Hl) in *.
  destruct Hl as [Sl Il].
  assert (forall t, In t (map Ropp (rev l)) <-> lgr_char N (- t) = 0) as HI.
  { intro t. rewrite in_map_iff. rewrite <- Il. split.
    - intros (u & <- & Hu). rewrite <- in_rev in Hu. now rewrite Ropp_involutive.
    - intro Hu. exists (- t). split; [ring|]. now rewrite <- in_rev. }
  assert (Forall (fun p => -1 < p <= 1) (map Ropp (rev l))) as HF.
  { apply Forall_forall. intros p Hp. apply HI in Hp. apply char_roots_range in Hp; [lra|assumption]. }
  split; [now rewrite map_length, rev_length|]. split; [now apply sorted_opp_rev|]. split; [exact HF|]. split; [|exact HI].
  apply sorted_last; [now apply sorted_opp_rev| |].
  - apply HI. rewrite char_at_m1 by assumption. reflexivity.
  - eapply Forall_impl; [|exact HF]. simpl; intros; lra.
Qed.

(** N points, strictly increasing in (-1, 1], the last one exactly 1 *)
Theorem C21_points : forall roots N, (1 <= N)%nat -> roots_correct roots (lgr_coef N) ->
  exists pts, get_collocation_points roots N SchemeLGR = Ok pts /\ List.length pts = N /\ StronglySorted Rlt pts /\
    Forall (fun p => -1 < p <= 1) pts /\ last pts 0 = 1 /\ (forall t, In t pts <-> legP (N - 1) (- t) + legP N (- t) = 0).
Proof. exact lgr_points. Qed.
Print Assumptions C21_points.

Theorem C21_lg_points : forall roots N, (1 <= N)%nat -> roots_correct roots (repeat 0 N ++ [1]) ->
  exists pts, get_collocation_points roots N SchemeLG = Ok pts /\ List.length pts = N /\ StronglySorted Rlt pts /\
    Forall (fun p => -1 < p < 1) pts /\ (forall t, In t pts <-> legP N t = 0).
Proof.
  intros roots N HN HR. unfold get_collocation_points. destruct (Nat.ltb_spec N 1); [lia|].
  eexists; split; [reflexivity|]. destruct (lg_roots_exist N HN) as (l & L & Hl & B).
  assert (real_roots_of (legP N) (roots (repeat 0 N ++ [1]))) as HC by (eapply real_roots_ext; [|exact HR]; intro; apply legval_P).
  rewrite (real_roots_unique _ _ _ HC Hl) in *. split; [assumption|]. split; [apply Hl|]. split; [assumption|]. apply Hl.
Qed.
Print Assumptions C21_lg_points.

Lemma lgr_ok : forall roots m, (2 <= m)%nat -> roots_correct roots (lgr_coef (m - 1)) ->
  exists t col, lgr roots m = Ok t /\ t_points t = 0 :: col /\ List.length col = (m - 1)%nat /\ t_stages t = m /\ t_ncon t = (m - 1)%nat /\
    t_A t = build_lagrange_differential_matrix (0 :: col) col /\ t_B t = diags [(1, 1%nat)] (m - 1) m /\
    StronglySorted Rlt (0 :: col) /\ last (0 :: col) 0 = 1 /\ Forall (fun p => 0 <= p <= 1) (0 :: col).
Proof.
  intros roots m Hm HR. destruct (lgr_points roots (m - 1) ltac:(lia) HR) as (pts & E & L & S & F & La & _).
  unfold lgr, lgr_collocation_points. rewrite E. cbn [fmap bind].
  set (col := map (fun p => (p + 1) / 2) pts).
  assert (List.length col = (m - 1)%nat) as Lc by (unfold col; now rewrite map_length).
  eexists; exists col. split; [reflexivity|]. cbn [t_points t_stages t_ncon t_A t_B]. rewrite Lc.
  repeat (split; [reflexivity || assumption|]).
  assert (Forall (fun p => 0 < p <= 1) col) as Fc.
  { unfold col. apply Forall_map. eapply Forall_impl; [|exact F]. simpl; intros; lra. }
  split; [|split].
  - constructor; [|eapply Forall_impl; [|exact Fc]; simpl; intros; lra].
    unfold col. clear -S. induction S as [|a l S IH Fa]; simpl; constructor; [assumption|]. apply Forall_map. eapply Forall_impl; [|exact Fa]. simpl; intros; lra.
  - destruct col as [|c0 cr] eqn:Ec; [simpl in Lc; lia|]. change (last (c0 :: cr) 0 = 1). rewrite <- Ec. unfold col.
    destruct (exists_last (l := pts)) as (p' & z & Ep); [intro C; subst pts; simpl in L; lia|].
    rewrite Ep in La |- *. rewrite last_last in La. rewrite map_app. simpl. rewrite last_last. subst z. lra.
  - constructor; [lra|]. eapply Forall_impl; [|exact Fc]. simpl; intros; lra.
Qed.

(** In the interval [0,1]: num_stages points, strictly increasing, from 0 to 1 - so the last stage of an
    interval is at its end.  Fewer than two stages are rejected. *)
Theorem C21_stage_points : forall roots m,
  ((m < 2)%nat -> lgr roots m = Raise AssertionError /\ lgr_integral roots m = Raise AssertionError) /\
  ((2 <= m)%nat -> roots_correct roots (lgr_coef (m - 1)) ->
   exists t t', lgr roots m = Ok t /\ lgr_integral roots m = Ok t' /\ t_points t' = t_points t /\ t_stages t = m /\ t_ncon t = (m - 1)%nat /\
     List.length (t_points t) = m /\ StronglySorted Rlt (t_points t) /\ hd 1 (t_points t) = 0 /\ last (t_points t) 0 = 1).
Proof.
  intros roots m. split.
  - intro Hm. unfold lgr_integral, lgr, lgr_collocation_points, get_collocation_points.
    destruct (Nat.ltb_spec (m - 1) 1); [split; reflexivity|lia].
  - intros Hm HR. destruct (lgr_ok roots m Hm HR) as (t & col & E & Ep & Lc & Es & En & EA & EB & S & La & F).
    exists t. unfold lgr_integral. rewrite E. cbn [bind]. eexists. split; [reflexivity|]. split; [reflexivity|]. cbn [t_points].
    split; [reflexivity|]. split; [assumption|]. split; [assumption|]. rewrite Ep. split; [simpl; lia|]. split; [assumption|]. split; [reflexivity|assumption].
Qed.
Print Assumptions C21_stage_points.

(** for the default three stages the roots are -1 and 1/3, the stage points 0, 1/3, 1 *)
Example C21_nonvacuous : real_roots_of (legval (lgr_coef 2)) [-1; 1/3] /\
  exists t, lgr (fun _ => [-1; 1/3]) 3 = Ok t /\ t_points t = [0; (- (1/3) + 1) / 2; (- -1 + 1) / 2].
Proof.
  split; [|eexists; split; reflexivity]. split; [repeat constructor; lra|].
  intro t. unfold legval, lgr_coef, legP. simpl. split.
  - intros [<-|[<-|[]]]; field.
  - intro H. assert ((t + 1) * (t - 1/3) = 0) as Z by lra. apply Rmult_integral in Z. destruct Z; [left|right; left]; lra.
Qed.

(** *** C22 *)
Definition col (c : nat) (X : mat) : list R := map (vget c) X.

Lemma vget_map2_sub : forall a b c, List.length a = List.length b -> vget c (vsub a b) = vget c a - vget c b.
Proof.
  intros a; induction a as [|x a IH]; intros [|y b] c H; simpl in *; try discriminate.
  - unfold vget; simpl. destruct c; lra.
  - destruct c; [reflexivity|]. unfold vget in *. simpl. apply IH. lia.
Qed.
Lemma cont_entry : forall t x xd d h k c, (k < List.length (t_A t))%nat -> (k < List.length (t_B t))%nat -> (c < d)%nat ->
  mget k c (continuity_con t x xd d h) = vdot (nth k (t_A t) []) (col c x) - vdot (nth k (t_B t) []) (col c xd) * h.
Proof.
  intros t x xd d h k c HA HB Hc. unfold mget, continuity_con, msub.
  assert (forall (M N : mat) k, (k < List.length M)%nat -> (k < List.length N)%nat -> nth k (map2 vsub M N) [] = vsub (nth k M []) (nth k N [])) as G.
  { intros M; induction M as [|r M IH]; intros [|s N] k0 H1 H2; simpl in *; try lia. destruct k0; [reflexivity|]. apply IH; lia. }
  unfold mscale, mmul. rewrite G by (rewrite !map_length; assumption).
  rewrite (nth_map_in _ _ _ _ _ _ []) by assumption. rewrite map_map. rewrite (nth_map_in _ _ _ _ _ _ []) by assumption.
  rewrite vget_map2_sub by (rewrite !map_length, seq_length; reflexivity). unfold vget at 1 3.
  rewrite (nth_map_in _ _ _ _ _ _ 0%nat) by (now rewrite seq_length). rewrite seq_nth by assumption. simpl. f_equal.
  rewrite map_map. rewrite (nth_map_in _ _ _ _ _ _ 0%nat) by (now rewrite seq_length). rewrite seq_nth by assumption. reflexivity.
Qed.

Theorem C22_forward_euler : forall x0 x1 v0 v1 d h c, (c < d)%nat ->
  (mget 0 c (continuity_con forward_euler [x0; x1] [v0; v1] d h) = 0 <-> vget c x1 = vget c x0 + h * vget c v0).
Proof.
  intros. rewrite cont_entry by (simpl; lia || assumption). unfold forward_euler, vdot, vmul, col. simpl. split; intro; lra.
Qed.
Print Assumptions C22_forward_euler.

Theorem C22_trapezoidal : forall x0 x1 v0 v1 d h c, (c < d)%nat ->
  (mget 0 c (continuity_con trapezoidal [x0; x1] [v0; v1] d h) = 0 <-> vget c x1 = vget c x0 + h * (vget c v0 + vget c v1) / 2).
Proof.
  intros. rewrite cont_entry by (simpl; lia || assumption). unfold trapezoidal, vdot, vmul, col. simpl. split; intro; lra.
Qed.
Print Assumptions C22_trapezoidal.

Lemma col_len : forall c X, List.length (col c X) = List.length X.
Proof. intros. apply map_length. Qed.
Lemma col_get : forall c X j, (j < List.length X)%nat -> vget j (col c X) = mget j c X.
Proof. intros c X j H. unfold vget at 1, col. rewrite (nth_map_in _ _ _ _ _ _ []) by assumption. reflexivity. Qed.

Lemma diag_row : forall n m k w, (k < n)%nat -> (S k < m)%nat -> List.length w = m -> vdot (nth k (diags [(1, 1%nat)] n m) []) w = vget (S k) w.
Proof.
  intros n m k w Hk Hm Lw. unfold diags. rewrite (nth_map_in _ _ _ _ _ _ 0%nat) by (now rewrite seq_length). rewrite seq_nth by assumption.
  rewrite (vdot_seq m) by (try rewrite map_length, seq_length; auto).
  rewrite (rsum_single _ (S k)); [|lia|].
  - unfold vget at 1. rewrite (nth_map_in _ _ _ _ _ _ 0%nat) by (rewrite seq_length; lia). rewrite seq_nth by lia. simpl.
    replace (k + 1)%nat with (S k) by lia. rewrite Nat.eqb_refl. lra.
  - intros j Hj. destruct (Nat.lt_ge_cases j m) as [Hjm|Hjm].
    + unfold vget at 1. rewrite (nth_map_in _ _ _ _ _ _ 0%nat) by (now rewrite seq_length). rewrite seq_nth by lia. simpl.
      destruct (Nat.eqb_spec j (k + 1)); [lia|lra].
    + unfold vget at 2. rewrite nth_overflow by lia. lra.
Qed.

(** LGR: the residual vanishes iff at every collocation point the derivative of the polynomial through the
    stage values equals h times the stage derivative.  [q] is any polynomial of degree < m through them. *)
Theorem C22_lgr : forall roots m t x xd d h k c q, (2 <= m)%nat -> roots_correct roots (lgr_coef (m - 1)) -> lgr roots m = Ok t ->
  List.length x = m -> List.length xd = m -> (k < m - 1)%nat -> (c < d)%nat ->
  (List.length q <= m)%nat -> (forall j, (j < m)%nat -> peval q (vget j (t_points t)) = mget j c x) ->
  (mget k c (continuity_con t x xd d h) = 0 <-> derivable_pt_lim (peval q) (vget (S k) (t_points t)) (h * mget (S k) c xd)).
Proof.
  intros roots m t x xd d h k c q Hm HR Ht Lx Lxd Hk Hc Lq Hq.
  destruct (lgr_ok roots m Hm HR) as (t' & cl & E & Ep & Lc & Es & En & EA & EB & S & La & F). rewrite Ht in E. inversion E; subst t'.
  assert (List.length (0 :: cl) = m) as Lp by (simpl; lia).
  rewrite cont_entry; [| rewrite EA; unfold build_lagrange_differential_matrix; rewrite map_length; lia
                       | rewrite EB; unfold diags; rewrite map_length, seq_length; lia | assumption].
  rewrite EB, diag_row by (auto; try lia; rewrite col_len; assumption). rewrite col_get by lia.
  assert (col c x = map (peval q) (0 :: cl)) as Ecol.
  { apply vec_ext; [rewrite col_len, map_length; congruence|]. rewrite col_len. intros j Hj. rewrite col_get by assumption. rewrite <- Hq by lia.
    unfold vget at 2. rewrite (nth_map_in _ _ _ _ _ _ 0) by lia. now rewrite Ep. }
  destruct (C20_differentiation_exact (0 :: cl) cl q k (sorted_NoDup _ S) ltac:(lia) ltac:(lia)) as [_ D].
  rewrite EA, Ecol. rewrite Ep. change (vget (Datatypes.S k) (0 :: cl)) with (vget k cl). split; intro H.
  - eapply dlim_eq; [|exact D]. lra.
  - pose proof (dlim_unique _ _ _ _ D H). lra.
Qed.
Print Assumptions C22_lgr.

(** LGRIntegral: iff every stage value is the first one plus h times the integral of the polynomial through
    the stage derivatives ([F] any antiderivative of it). *)
Theorem C22_lgr_integral : forall roots m t x xd d h k c q F, (2 <= m)%nat -> roots_correct roots (lgr_coef (m - 1)) -> lgr_integral roots m = Ok t ->
  List.length x = m -> List.length xd = m -> (k < m - 1)%nat -> (c < d)%nat ->
  (List.length q <= m)%nat -> (forall j, (j < m)%nat -> peval q (vget j (t_points t)) = mget j c xd) ->
  (forall u, derivable_pt_lim F u (peval q u)) ->
  (mget k c (continuity_con t x xd d h) = 0 <-> mget (S k) c x = mget 0 c x + h * (F (vget (S k) (t_points t)) - F 0)).
Proof.
  intros roots m t x xd d h k c q F Hm HR Ht Lx Lxd Hk Hc Lq Hq HF.
  destruct (lgr_ok roots m Hm HR) as (t' & cl & E & Ep & Lc & Es & En & EA & EB & S & La & Fp).
  unfold lgr_integral in Ht. rewrite E in Ht. cbn [bind] in Ht. inversion Ht; subst t. clear Ht. cbn [t_points] in *. rewrite Ep in *. simpl tl.
  assert (List.length (0 :: cl) = m) as Lp by (simpl; lia).
  rewrite cont_entry; cbn [t_A t_B]; [| rewrite map_length, seq_length; lia | unfold build_lagrange_integration_matrix; rewrite map_length; lia | assumption].
  assert (col c xd = map (peval q) (0 :: cl)) as Ecol.
  { apply vec_ext; [rewrite col_len, map_length; congruence|]. rewrite col_len. intros j Hj. rewrite col_get by assumption. rewrite <- Hq by lia.
    unfold vget at 2. rewrite (nth_map_in _ _ _ _ _ _ 0) by lia. reflexivity. }
  rewrite Ecol. rewrite (C20_integration_exact (0 :: cl) cl q F k (sorted_NoDup _ S)) by (auto; lia).
  change (vget 0 (0 :: cl)) with 0. change (vget (Datatypes.S k) (0 :: cl)) with (vget k cl).
  assert (vdot (nth k (map (fun i => -1 :: map (fun j => if Nat.eqb i j then 1 else 0) (seq 0 (m - 1))) (seq 0 (m - 1))) []) (col c x) = mget (Datatypes.S k) c x - mget 0 c x) as ->.
  { rewrite (nth_map_in _ _ _ _ _ _ 0%nat) by (now rewrite seq_length). rewrite seq_nth by assumption.
    destruct x as [|x0 xr]; [simpl in *; lia|]. change (col c (x0 :: xr)) with (vget c x0 :: col c xr).
    assert (forall a l b n, vdot (a :: l) (b :: n) = a * b + vdot l n) as VC by reflexivity. rewrite VC. clear VC.
    rewrite (vdot_seq (m - 1)) by (rewrite ?col_len, ?map_length, ?seq_length; simpl in *; lia).
    rewrite (rsum_single _ k); [|lia|].
    - unfold vget at 2. rewrite (nth_map_in _ _ _ _ _ _ 0%nat) by (rewrite seq_length; lia). rewrite seq_nth by lia. rewrite !Nat.add_0_l, Nat.eqb_refl.
      rewrite col_get by (simpl in *; lia). unfold mget. simpl. lra.
    - intros j Hj. destruct (Nat.lt_ge_cases j (m - 1)) as [Hjm|Hjm].
      + unfold vget at 1. rewrite (nth_map_in _ _ _ _ _ _ 0%nat) by (now rewrite seq_length). rewrite seq_nth by lia. simpl. destruct (Nat.eqb_spec k j); [lia|lra].
      + unfold vget at 1. rewrite nth_overflow by (rewrite map_length, seq_length; lia). lra. }
  split; intro; lra.
Qed.
Print Assumptions C22_lgr_integral.

(** *** Exactness on polynomial trajectories *)
Lemma poly_affine : forall p t0 h, exists q, List.length q = List.length p /\ forall u, peval q u = peval p (t0 + h * u).
Proof.
  intros p t0 h; induction p as [|c p (q & Lq & Eq)]; [exists []; split; reflexivity|].
  destruct q as [|q0 qr].
  - exists [c]. destruct p; [|discriminate]. split; [reflexivity|]. intro u; simpl; ring.
  - exists (padd [c] (pmul_lin (q0 :: qr) t0 h)). split.
    + rewrite padd_length, pmul_lin_length by discriminate. rewrite Lq. simpl. lia.
    + intro u. rewrite peval_padd, peval_pmul_lin, Eq. simpl. ring.
Qed.
Lemma affine_deriv : forall p q t0 h, (forall u, peval q u = peval p (t0 + h * u)) -> forall u, peval (pdiff q) u = h * peval (pdiff p) (t0 + h * u).
Proof.
  intros p q t0 h E u. eapply dlim_unique; [apply peval_deriv|].
  eapply dlim_ext; [intro; symmetry; apply E|]. 
  apply dlim_ext with (f := comp (peval p) (fun u => h * u + t0)); [intro; unfold comp; f_equal; ring|].
  rewrite Rmult_comm. apply derivable_pt_lim_comp; [apply dlim_lin|]. replace (h * u + t0) with (t0 + h * u) by ring. apply peval_deriv.
Qed.
Lemma pdiff_len : forall p, List.length (pdiff p) = (List.length p - 1)%nat.
Proof.
  intros [|c p]; [reflexivity|]. simpl. rewrite Nat.sub_0_r. generalize 1%nat. induction p as [|d p IH]; intro k; simpl; [reflexivity|]. now rewrite IH.
Qed.

(** [follows pts s t0 h x xd]: the stage values and derivatives are those of the polynomial trajectories
    [s c] at the times t0 + h * pts_j *)
Definition follows (pts : list R) (s : nat -> list R) (t0 h : R) (d : nat) (x xd : mat) : Prop :=
  List.length x = List.length pts /\ List.length xd = List.length pts /\
  forall j c, (j < List.length pts)%nat -> (c < d)%nat ->
    mget j c x = peval (s c) (t0 + h * vget j pts) /\
    derivable_pt_lim (peval (s c)) (t0 + h * vget j pts) (mget j c xd).

Lemma follows_xd : forall pts s t0 h d x xd j c, follows pts s t0 h d x xd -> (j < List.length pts)%nat -> (c < d)%nat ->
  mget j c xd = peval (pdiff (s c)) (t0 + h * vget j pts).
Proof. intros pts s t0 h d x xd j c (_ & _ & H) Hj Hc. destruct (H j c Hj Hc) as [_ D]. eapply dlim_unique; [exact D | apply peval_deriv]. Qed.

Theorem C22_polynomial_exact_lgr : forall roots m t x xd d h t0 s, (2 <= m)%nat -> roots_correct roots (lgr_coef (m - 1)) -> lgr roots m = Ok t ->
  follows (t_points t) s t0 h d x xd -> (forall c, (c < d)%nat -> (List.length (s c) <= m)%nat) ->
  forall k c, (k < m - 1)%nat -> (c < d)%nat -> mget k c (continuity_con t x xd d h) = 0.
Proof.
  intros roots m t x xd d h t0 s Hm HR Ht HF Hs k c Hk Hc.
  destruct (lgr_ok roots m Hm HR) as (t' & cl & E & Ep & Lc & _). rewrite Ht in E. inversion E; subst t'.
  assert (List.length (t_points t) = m) as Lp by (rewrite Ep; simpl; lia).
  pose proof HF as (Lx & Lxd & Hv). destruct (poly_affine (s c) t0 h) as (q & Lq & Eq).
  apply (proj2 (C22_lgr roots m t x xd d h k c q Hm HR Ht ltac:(congruence) ltac:(congruence) Hk Hc ltac:(specialize (Hs c Hc); lia)
    ltac:(intros j Hj; rewrite Eq; symmetry; apply (proj1 (Hv j c ltac:(lia) Hc))))).
  rewrite (follows_xd _ _ _ _ _ _ _ (S k) c HF) by (auto; lia). rewrite <- (affine_deriv (s c) q t0 h Eq). apply peval_deriv.
Qed.
Print Assumptions C22_polynomial_exact_lgr.

(** one order higher for the integral variant *)
Theorem C22_polynomial_exact_lgr_integral : forall roots m t x xd d h t0 s, (2 <= m)%nat -> roots_correct roots (lgr_coef (m - 1)) -> lgr_integral roots m = Ok t ->
  follows (t_points t) s t0 h d x xd -> (forall c, (c < d)%nat -> (List.length (s c) <= m + 1)%nat) ->
  forall k c, (k < m - 1)%nat -> (c < d)%nat -> mget k c (continuity_con t x xd d h) = 0.
Proof.
  intros roots m t x xd d h t0 s Hm HR Ht HF Hs k c Hk Hc.
  destruct (lgr_ok roots m Hm HR) as (t' & cl & E & Ep & Lc & _).
  assert (t_points t = 0 :: cl) as Ept by (unfold lgr_integral in Ht; rewrite E in Ht; cbn [bind] in Ht; inversion Ht; exact Ep).
  assert (List.length (t_points t) = m) as Lp by (rewrite Ept; simpl; lia).
  pose proof HF as (Lx & Lxd & Hv). destruct (poly_affine (s c) t0 h) as (q & Lq & Eq).
  destruct (poly_affine (pdiff (s c)) t0 h) as (r & Lr & Er).
  assert (mget 0 c x = peval q 0) as X0.
  { destruct (Hv 0%nat c ltac:(lia) Hc) as [-> _]. rewrite Eq, Ept. reflexivity. }
  pose proof (affine_deriv (s c) q t0 h Eq) as Ed.
  apply (proj2 (C22_lgr_integral roots m t x xd d h k c r (peval (pinteg r)) Hm HR Ht ltac:(congruence) ltac:(congruence) Hk Hc
    ltac:(rewrite Lr, pdiff_len; specialize (Hs c Hc); lia)
    ltac:(intros j Hj; rewrite Er; symmetry; now apply (follows_xd _ _ _ _ _ _ _ j c HF ltac:(lia))) (pinteg_deriv r))).
  destruct (Hv (S k) c ltac:(lia) Hc) as [-> _]. rewrite <- Eq, X0.
  pose proof (same_deriv_same_incr (peval q) (fun u => h * peval (pinteg r) u) (fun u => h * peval r u)) as SI.
  assert (peval q (vget (S k) (t_points t)) - peval q 0 = h * peval (pinteg r) (vget (S k) (t_points t)) - h * peval (pinteg r) 0) as K.
  { apply SI; intro u.
    - eapply dlim_eq; [|apply peval_deriv]. now rewrite Ed, Er.
    - apply dlim_scal, pinteg_deriv. }
  lra.
Qed.
Print Assumptions C22_polynomial_exact_lgr_integral.

(** linear trajectories for forward Euler, quadratic ones for the trapezoidal rule *)
Theorem C22_polynomial_exact_euler : forall x xd d h t0 s, follows [0; 1] s t0 h d x xd -> (forall c, (c < d)%nat -> (List.length (s c) <= 2)%nat) ->
  forall c, (c < d)%nat -> mget 0 c (continuity_con forward_euler x xd d h) = 0.
Proof.
  intros x xd d h t0 s HF Hs c Hc. pose proof HF as (Lx & Lxd & Hv).
  destruct x as [|x0 [|x1 [|? ?]]]; try discriminate. destruct xd as [|v0 [|v1 [|? ?]]]; try discriminate.
  apply C22_forward_euler; [assumption|].
  pose proof (follows_xd _ _ _ _ _ _ _ 0%nat c HF ltac:(simpl; lia) Hc) as V0.
  destruct (Hv 0%nat c ltac:(simpl; lia) Hc) as [X0 _], (Hv 1%nat c ltac:(simpl; lia) Hc) as [X1 _].
  unfold mget in *. simpl in X0, X1, V0. unfold vget in *; simpl in X0, X1, V0 |- *. specialize (Hs c Hc).
  destruct (s c) as [|a [|b [|? ?]]]; simpl in *; try lia; rewrite X0, X1, V0; simpl; ring.
Qed.
Print Assumptions C22_polynomial_exact_euler.
Theorem C22_polynomial_exact_trapezoidal : forall x xd d h t0 s, follows [0; 1] s t0 h d x xd -> (forall c, (c < d)%nat -> (List.length (s c) <= 3)%nat) ->
  forall c, (c < d)%nat -> mget 0 c (continuity_con trapezoidal x xd d h) = 0.
Proof.
  intros x xd d h t0 s HF Hs c Hc. pose proof HF as (Lx & Lxd & Hv).
  destruct x as [|x0 [|x1 [|? ?]]]; try discriminate. destruct xd as [|v0 [|v1 [|? ?]]]; try discriminate.
  apply C22_trapezoidal; [assumption|].
  pose proof (follows_xd _ _ _ _ _ _ _ 0%nat c HF ltac:(simpl; lia) Hc) as V0.
  pose proof (follows_xd _ _ _ _ _ _ _ 1%nat c HF ltac:(simpl; lia) Hc) as V1.
  destruct (Hv 0%nat c ltac:(simpl; lia) Hc) as [X0 _], (Hv 1%nat c ltac:(simpl; lia) Hc) as [X1 _].
  unfold mget in *. simpl in X0, X1, V0, V1. unfold vget in *; simpl in X0, X1, V0, V1 |- *. specialize (Hs c Hc).
  destruct (s c) as [|a [|b [|e [|? ?]]]]; simpl in *; try lia; rewrite X0, X1, V0, V1; simpl; field.
Qed.
Print Assumptions C22_polynomial_exact_trapezoidal.

(** a cubic defeats the trapezoidal rule: the order in the theorem is sharp *)
Theorem C22_trapezoidal_cubic_refuted : exists x xd, follows [0; 1] (fun _ => [0; 0; 0; 1]) 0 1 1 x xd /\
  mget 0 0 (continuity_con trapezoidal x xd 1 1) <> 0.
Proof.
  exists [[0]; [1]], [[0]; [3]]. split.
  - split; [reflexivity|]. split; [reflexivity|]. intros j c Hj Hc. assert (c = 0%nat) by lia. subst c.
    destruct j as [|[|j]]; [| |simpl in Hj; lia]; (split; [unfold mget, vget; simpl; ring|]); (eapply dlim_eq; [|apply peval_deriv]); unfold mget, vget; simpl; ring.
  - unfold mget, continuity_con, vget, vdot; simpl. unfold vdot, vmul, vget; simpl. lra.
Qed.

(** *** dispatch, and constants for every scheme *)
Definition oracle_ok (roots : list R -> list R) (ns : option nat) : Prop :=
  roots_correct roots (lgr_coef (match ns with None => 2 | Some n => n - 1 end)).

Theorem C22_make : forall roots name ns,
  (~ In name ["ForwardEuler"; "Trapezoidal"; "LGR"; "LGRIntegral"] -> make_transcription roots name ns = Raise RuntimeError) /\
  (forall t, make_transcription roots name ns = Ok t ->
     (name = "ForwardEuler" /\ ns = None /\ t = forward_euler) \/ (name = "Trapezoidal" /\ ns = None /\ t = trapezoidal) \/
     (name = "LGR" /\ lgr roots (match ns with None => 3 | Some n => n end) = Ok t) \/
     (name = "LGRIntegral" /\ lgr_integral roots (match ns with None => 3 | Some n => n end) = Ok t)).
Proof.
  intros roots name ns. unfold make_transcription. split.
  - intro H. simpl in H. destruct (String.eqb_spec name "ForwardEuler"); [exfalso; apply H; auto|].
    destruct (String.eqb_spec name "Trapezoidal"); [exfalso; apply H; auto|]. destruct (String.eqb_spec name "LGR"); [exfalso; apply H; auto|].
    destruct (String.eqb_spec name "LGRIntegral"); [exfalso; apply H; auto 10|]. reflexivity.
  - intros t. destruct (String.eqb_spec name "ForwardEuler"); [destruct ns; [discriminate|]; intro E; inversion E; auto|].
    destruct (String.eqb_spec name "Trapezoidal"); [destruct ns; [discriminate|]; intro E; inversion E; auto 10|].
    destruct (String.eqb_spec name "LGR"); [auto 10|]. destruct (String.eqb_spec name "LGRIntegral"); [auto 10|discriminate].
Qed.
Print Assumptions C22_make.

Theorem C22_constants : forall roots name ns t row d h, oracle_ok roots ns -> make_transcription roots name ns = Ok t ->
  List.length row = d ->
  forall k c, (k < t_ncon t)%nat -> (c < d)%nat ->
    mget k c (continuity_con t (repeat row (t_stages t)) (repeat (zeros d) (t_stages t)) d h) = 0.
Proof.
  intros roots name ns t row d h HO HM Lr k c Hk Hc.
  assert (forall pts, List.length pts = t_stages t -> follows pts (fun c => [vget c row]) 0 h d (repeat row (t_stages t)) (repeat (zeros d) (t_stages t))) as HF.
  { intros pts Lp. split; [rewrite repeat_length; congruence|]. split; [rewrite repeat_length; congruence|]. intros j c' Hj Hc'.
    unfold mget. assert (forall A (a e : A) n i, (i < n)%nat -> nth i (repeat a n) e = a) as NR.
    { clear. intros A a e n; induction n as [|n IH]; intros [|i] H; simpl; try lia; auto. apply IH. lia. }
    rewrite !NR by lia. split; [simpl; ring|]. eapply dlim_eq; [|apply peval_deriv]. unfold vget, zeros. rewrite nth_repeat. reflexivity. }
  destruct (proj2 (C22_make roots name ns) t HM) as [(_ & _ & ->)|[(_ & _ & ->)|[(_ & E)|(_ & E)]]].
  - simpl in Hk. assert (k = 0%nat) by lia. subst k. eapply (C22_polynomial_exact_euler _ _ d h 0); [apply HF; reflexivity| |assumption]. simpl; intros; lia.
  - simpl in Hk. assert (k = 0%nat) by lia. subst k. eapply (C22_polynomial_exact_trapezoidal _ _ d h 0); [apply HF; reflexivity| |assumption]. simpl; intros; lia.
  - set (m := match ns with None => 3%nat | Some n => n end) in *.
    destruct (le_lt_dec 2 m) as [Hm|Hm]; [|destruct (C21_stage_points roots m) as [B _]; destruct (B Hm); congruence].
    assert (roots_correct roots (lgr_coef (m - 1))) as HR by (unfold m; destruct ns; exact HO).
    destruct (lgr_ok roots m Hm HR) as (t' & cl & E' & Ep & Lc & Es & En & _). rewrite E in E'. inversion E'; subst t'.
    eapply (C22_polynomial_exact_lgr roots m t _ _ d h 0); eauto; [apply HF; rewrite Ep; simpl; lia | simpl; intros; lia | lia].
  - set (m := match ns with None => 3%nat | Some n => n end) in *.
    destruct (le_lt_dec 2 m) as [Hm|Hm]; [|destruct (C21_stage_points roots m) as [B _]; destruct (B Hm); congruence].
    assert (roots_correct roots (lgr_coef (m - 1))) as HR by (unfold m; destruct ns; exact HO).
    destruct (lgr_ok roots m Hm HR) as (t' & cl & E' & Ep & Lc & Es & En & _).
    assert (t_points t = 0 :: cl /\ t_stages t = m /\ t_ncon t = (m - 1)%nat) as (P1 & P2 & P3).
    { unfold lgr_integral in E. rewrite E' in E. cbn [bind] in E. inversion E. simpl. auto. }
    eapply (C22_polynomial_exact_lgr_integral roots m t _ _ d h 0); eauto; [apply HF; rewrite P1; simpl; lia | simpl; intros; lia | lia].
Qed.
Print Assumptions C22_constants.

Example C22_nonvacuous : oracle_ok (fun _ => [-1; 1/3]) None /\
  (exists t, make_transcription (fun _ => [-1; 1/3]) "LGR" None = Ok t /\ t_stages t = 3%nat /\ t_ncon t = 2%nat) /\
  follows [0; 1] (fun _ => [1; 2]) 0 (1/2) 1 [[1]; [2]] [[2]; [2]].
Proof.
  split; [exact (proj1 C21_nonvacuous)|]. split; [eexists; split; [reflexivity|split; reflexivity]|].
  split; [reflexivity|]. split; [reflexivity|]. intros j c Hj Hc. assert (c = 0%nat) by lia. subst c.
  destruct j as [|[|j]]; [| |simpl in Hj; lia]; (split; [unfold mget, vget; simpl; lra|]); (eapply dlim_eq; [|apply peval_deriv]); unfold mget, vget; simpl; ring.
Qed.
