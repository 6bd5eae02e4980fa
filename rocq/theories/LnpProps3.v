(** C57 continued: arctan2d; the vehicle model evaluated with CasADi matrices is the vehicle model evaluated with numpy. *)
From Verif Require Import Base RBase CasModel CasSpec CasProps2 LnpModel LnpSpec LnpProofs LnpProofs2 LnpProps LnpProps2 VehModel CasVehModel.
From Coq Require Import Lra.

(** ** arctan2d: the angle in (-180, 180] of the point (x, y) *)
Lemma r_pos : forall x y, x <> 0 \/ y <> 0 -> 0 < sqrt (x * x + y * y).
Proof. intros x y H. apply sqrt_lt_R0. pose proof (Rle_0_sqr x) as A. pose proof (Rle_0_sqr y) as B. unfold Rsqr in *. destruct H as [H|H]; [assert (0 < x * x) by nra|assert (0 < y * y) by nra]; lra. Qed.
Lemma atan_xy : forall x y, x <> 0 -> sqrt (x * x + y * y) * cos (atan (y / x)) = Rabs x /\ sqrt (x * x + y * y) * sin (atan (y / x)) = Rabs x * (y / x).
Proof.
  intros x y Hx. assert (sqrt (x * x + y * y) = Rabs x * sqrt (1 + (y / x) ^ 2)) as E.
  { rewrite <- (sqrt_Rsqr_abs x), <- sqrt_mult; [|apply Rle_0_sqr|pose proof (pow2_ge_0 (y / x)); lra]. f_equal. unfold Rsqr. field. exact Hx. }
  assert (0 < sqrt (1 + (y / x) ^ 2)) as P by (apply sqrt_lt_R0; pose proof (pow2_ge_0 (y / x)); lra).
  rewrite E, cos_atan, sin_atan. unfold Rsqr. replace (y / x * (y / x)) with ((y / x) ^ 2) by ring. set (q := sqrt (1 + (y / x) ^ 2)) in *. split; field; try split; first [exact Hx | intro; lra].
Qed.
Theorem C57_arctan2d : forall x y, x <> 0 \/ y <> 0 -> let t := arctan2d y x in
  -180 < t <= 180 /\ sqrt (x * x + y * y) * cosd t = x /\ sqrt (x * x + y * y) * sind t = y.
Proof.
  intros x y H t. assert (cosd t = cos (arctan2 y x) /\ sind t = sin (arctan2 y x)) as [-> ->].
  { unfold t, arctan2d, cosd, sind, radians, degrees. pose proof PI_RGT_0. replace (arctan2 y x * 180 / PI * PI / 180) with (arctan2 y x) by (field; lra). auto. }
  enough (- PI < arctan2 y x <= PI /\ sqrt (x * x + y * y) * cos (arctan2 y x) = x /\ sqrt (x * x + y * y) * sin (arctan2 y x) = y) as (B & C).
  { split; [|exact C]. unfold t, arctan2d, degrees. pose proof PI_RGT_0 as P. split.
    - apply (Rmult_lt_reg_r (PI / 180)); [lra|]. field_simplify; lra.
    - apply (Rmult_le_reg_r (PI / 180)); [lra|]. field_simplify; lra. }
  pose proof PI_RGT_0 as P. unfold arctan2. destruct (Rlt_dec 0 x) as [Hx|Hx].
  - destruct (atan_xy x y ltac:(lra)) as [A B]. pose proof (atan_bound (y / x)) as Bd. split; [lra|]. rewrite A, B, Rabs_right by lra. split; [reflexivity|field; lra].
  - destruct (Rlt_dec x 0) as [Hx'|Hx'].
    + destruct (atan_xy x y ltac:(lra)) as [A B]. pose proof (atan_bound (y / x)) as Bd. rewrite Rabs_left in A, B by lra.
      assert (0 <= y -> y / x <= 0) as N1. { intro Hy. unfold Rdiv. assert (/ x < 0) by now apply Rinv_lt_0_compat. nra. }
      assert (y < 0 -> 0 < y / x) as N2. { intro Hy. unfold Rdiv. assert (/ x < 0) by now apply Rinv_lt_0_compat. nra. }
      destruct (Rle_dec 0 y) as [Hy|Hy].
      * split; [|rewrite neg_cos, neg_sin; split; [|]].
        -- specialize (N1 Hy). assert (atan (y / x) <= 0). { destruct (Rle_lt_or_eq_dec _ _ N1) as [L|L]; [|rewrite L, atan_0; lra]. pose proof (atan_increasing _ _ L). rewrite atan_0 in *. lra. } lra.
        -- replace (sqrt (x * x + y * y) * - cos (atan (y / x))) with (- (sqrt (x * x + y * y) * cos (atan (y / x)))) by ring. rewrite A. ring.
        -- replace (sqrt (x * x + y * y) * - sin (atan (y / x))) with (- (sqrt (x * x + y * y) * sin (atan (y / x)))) by ring. rewrite B. field. lra.
      * assert (cos (atan (y / x) - PI) = - cos (atan (y / x)) /\ sin (atan (y / x) - PI) = - sin (atan (y / x))) as [-> ->]. { rewrite cos_minus, sin_minus, cos_PI, sin_PI. split; ring. }
        split; [|split].
        -- specialize (N2 ltac:(lra)). pose proof (atan_increasing _ _ N2). rewrite atan_0 in *. lra.
        -- replace (sqrt (x * x + y * y) * - cos (atan (y / x))) with (- (sqrt (x * x + y * y) * cos (atan (y / x)))) by ring. rewrite A. ring.
        -- replace (sqrt (x * x + y * y) * - sin (atan (y / x))) with (- (sqrt (x * x + y * y) * sin (atan (y / x)))) by ring. rewrite B. field. lra.
    + assert (x = 0) as -> by lra. rewrite Rmult_0_l, Rplus_0_l. change (y * y) with (Rsqr y). rewrite sqrt_Rsqr_abs. destruct (Rlt_dec 0 y) as [Hy|Hy].
      * rewrite cos_PI2, sin_PI2, Rabs_right by lra. split; [lra|]. split; ring.
      * destruct (Rlt_dec y 0) as [Hy'|Hy']; [|lra]. rewrite cos_neg, sin_neg, cos_PI2, sin_PI2, Rabs_left by lra. split; [lra|]. split; ring.
Qed.
Print Assumptions C57_arctan2d.
(** the origin has the angle 0 *)
Theorem C57_arctan2d_origin : arctan2d 0 0 = 0.
Proof. unfold arctan2d, arctan2, degrees. destruct (Rlt_dec 0 0) as [H|H]; [lra|]. unfold Rdiv. ring. Qed.
Print Assumptions C57_arctan2d_origin.

(** ** the vehicle *)
Definition is3 (m : cmat) (v : v3) : Prop := is_mat m 3 1 (fun i _ => match i with O => X v | 1%nat => Y v | _ => VehModel.Z v end).
Lemma is3_entries : forall m v, is3 m v -> cr m = 3%nat /\ cc m = 1%nat /\ ce m 0 0 = X v /\ ce m 1 0 = Y v /\ ce m 2 0 = VehModel.Z v.
Proof. intros m v (A & B & C). repeat split; auto; apply C; lia. Qed.
Lemma array3 : forall a b c x y z, scalar_item a x -> scalar_item b y -> scalar_item c z -> exists r, lnp_array [a; b; c] = Ok r /\ is3 (dm r) (x, y, z).
Proof.
  intros a b c x y z Ha Hb Hc. destruct (C57_array [a; b; c] [x; y; z]) as (r & E & _ & M1 & M2 & M3). { repeat (apply Forall2_cons; [assumption|]); apply Forall2_nil. }
  exists r. split; [exact E|]. split; [exact M1|]. split; [exact M2|]. intros i j Hi Hj. rewrite M3 by (cbn; assumption). destruct i as [|[|[|i]]]; try reflexivity; lia.
Qed.
Lemma cross3 : forall a b v w, is3 (dm a) v -> is3 (dm b) w -> exists c, lnp_cross a b (-1) (-1) (-1) None = Ok c /\ is3 c (cross v w).
Proof.
  intros a b v w Ha Hb. apply is3_entries in Ha, Hb. destruct Ha as (A1 & A2 & A3 & A4 & A5), Hb as (B1 & B2 & B3 & B4 & B5). destruct (C57_cross_vectors a b A1 A2 B1 B2) as (c & E & C1 & C2 & C3).
  exists c. split; [exact E|]. split; [exact C1|]. split; [exact C2|]. intros i j Hi Hj. rewrite C3 by assumption. unfold cross_entry, cross, X, Y, VehModel.Z in *. destruct i as [|[|[|i]]]; cbn [fst snd]; rewrite ?A3, ?A4, ?A5, ?B3, ?B4, ?B5; try reflexivity; lia.
Qed.
Lemma add3 : forall a b v w, is3 (dm a) v -> is3 (dm b) w -> exists c, lnp_add a b = Ok c /\ is3 c (vplus v w).
Proof.
  intros a b v w Ha Hb. apply is3_entries in Ha, Hb. destruct Ha as (A1 & A2 & A3 & A4 & A5), Hb as (B1 & B2 & B3 & B4 & B5). destruct (cbin_same Rplus (dm a) (dm b) 3 1 A1 B1 A2 B2) as (c & E & C1 & C2 & C3).
  exists c. split; [exact E|]. split; [exact C1|]. split; [exact C2|]. intros i j Hi Hj. rewrite C3 by assumption. assert (j = 0)%nat as -> by lia. destruct i as [|[|[|i]]]; [rewrite A3, B3|rewrite A4, B4|rewrite A5, B5|lia]; reflexivity.
Qed.
Lemma rotate3 : forall theta b, exists r, c_rotate theta b = Ok r /\ forall m v, is3 m v -> exists c, c_matmul r (CasM m) = Ok c /\ is3 c (rotate_z theta v).
Proof.
  intros theta b. unfold c_rotate. set (k := fun r : R => if b then ESym (cscalar r) else ENum r).
  assert (forall r, scalar_elem (k r) r) as K. { intro r. unfold k, scalar_elem. destruct b; [right; exists (cscalar r); repeat split|now left]. }
  assert (forall r, scalar_elem (ENum r) r) as K' by (intro; now left).
  destruct (C57_array_rows [ISeq [k (cos theta); k (sin theta); ENum 0]; ISeq [k (- sin theta); k (cos theta); ENum 0]; ISeq [ENum 0; ENum 0; ENum 1]] [[cos theta; sin theta; 0]; [- sin theta; cos theta; 0]; [0; 0; 1]] 3) as (r & E & _ & M1 & M2 & M3).
  { discriminate. } { lia. } { intros v [<-|[<-|[<-|[]]]]; reflexivity. } { repeat (apply Forall2_cons; [eexists; (split; [reflexivity|]); repeat (apply Forall2_cons; [auto|]); apply Forall2_nil|]); apply Forall2_nil. }
  exists r. split; [exact E|]. intros m v Hm. apply is3_entries in Hm. destruct Hm as (A1 & A2 & A3 & A4 & A5). cbn [List.length] in M1.
  unfold c_matmul, mtimes, is_scalar. cbn [dm]. rewrite M1, M2, A1. cbn [Nat.eqb andb orb]. eexists. split; [reflexivity|]. split; [reflexivity|]. split; [exact A2|]. intros i j Hi Hj. assert (j = 0)%nat as -> by lia. cbn [ce seq map rsum].
  rewrite A3, A4, A5. rewrite !M3 by (cbn [List.length]; lia). unfold rotate_z, X, Y, VehModel.Z. destruct i as [|[|[|i]]]; [..|lia]; unfold vget; cbn [nth fst snd]; ring.
Qed.
Lemma sym_item : forall r, scalar_item (sym r) r.
Proof. intro r. right. exists (cscalar r). repeat split. Qed.
Lemma par_item : forall b r, scalar_item (par b r) r.
Proof. intros [|] r; [apply sym_item|now left]. Qed.
Lemma num_item : forall r, scalar_item (INum r) r.
Proof. intro; now left. Qed.

Section Vehicle.
Variables (p : vparams) (aero : aero_model) (tire : corner -> tire_model) (s : vstates) (u : vinputs) (b : bool).
Lemma pos3 : forall c, exists r, c_pos p b c = Ok r /\ is3 (dm r) (f_pos p c).
Proof. intros [| | |]; apply array3; apply par_item. Qed.
Lemma vel_body3 : forall c, exists m, c_vel_body p s b c = Ok m /\ is3 m (f_vel_body p s c).
Proof.
  intro c. unfold c_vel_body. destruct (array3 _ _ _ _ _ _ (sym_item (vx s)) (sym_item (vy s)) (num_item 0)) as (v & Ev & Mv). rewrite Ev. cbn [bind].
  destruct (array3 _ _ _ _ _ _ (num_item 0) (num_item 0) (sym_item (yaw_rate s))) as (w & Ew & Mw). rewrite Ew. cbn [bind].
  destruct (pos3 c) as (q & Eq & Mq). rewrite Eq. cbn [bind]. destruct (cross3 w q _ _ Mw Mq) as (k & Ek & Mk). rewrite Ek. cbn [bind]. exact (add3 v (CasM k) _ _ Mv Mk).
Qed.
Lemma vel_wheel3 : forall c, exists m, c_vel_wheel p s u b c = Ok m /\ is3 m (f_vel_wheel p s u c).
Proof.
  intro c. unfold c_vel_wheel. destruct (rotate3 (f_wheel_angle p u c) (front c)) as (r & Er & Hr). rewrite Er. cbn [bind]. destruct (vel_body3 c) as (v & Ev & Mv). rewrite Ev. cbn [bind]. now apply Hr.
Qed.
Lemma tire3 : forall c, exists m, c_tire p aero tire s u b c = Ok (f_alpha p s u c, m) /\ is3 m (f_force_wheel p aero tire s u c).
Proof.
  intro c. unfold c_tire. destruct (vel_wheel3 c) as (v & Ev & Mv). rewrite Ev. cbn [bind]. apply is3_entries in Mv. destruct Mv as (_ & _ & V0 & V1 & _). rewrite V0, V1.
  destruct (array3 _ _ _ _ _ _ (sym_item (fst (f_tire p aero tire s u c))) (sym_item (snd (f_tire p aero tire s u c) * mirror c)) (sym_item (f_wheel_load p aero s u c))) as (r & Er & Mr).
  unfold f_tire in Er. unfold f_alpha in Er. rewrite Er. cbn [bind]. exists (dm r). split; [reflexivity|exact Mr].
Qed.
Lemma force3 : forall c, exists m, c_force_body p aero tire s u b c = Ok m /\ is3 m (f_force_body p aero tire s u c).
Proof.
  intro c. unfold c_force_body. destruct (tire3 c) as (f & Ef & Mf). rewrite Ef. cbn [bind snd]. destruct (rotate3 (- f_wheel_angle p u c) (front c)) as (r & Er & Hr). rewrite Er. cbn [bind]. now apply Hr.
Qed.
Lemma moment3 : forall c, exists m, c_moment_body p aero tire s u b c = Ok m /\ is3 m (f_moment_body p aero tire s u c).
Proof.
  intro c. unfold c_moment_body. destruct (pos3 c) as (q & Eq & Mq). rewrite Eq. cbn [bind]. destruct (force3 c) as (f & Ef & Mf). rewrite Ef. cbn [bind]. exact (cross3 q (CasM f) _ _ Mq Mf).
Qed.
Lemma reduce3 : forall g v, (forall c, exists m, g c = Ok m /\ is3 m (v c)) -> exists m, reduce_add g = Ok m /\ is3 m (sum4 v).
Proof.
  intros g v H. unfold reduce_add. destruct (H fl) as (a & Ea & Ma), (H fr) as (c & Ec & Mc), (H rl) as (d & Ed & Md), (H rr) as (e & Ee & Me). rewrite Ea, Ec, Ed, Ee. cbn [bind].
  destruct (add3 (CasM a) (CasM c) _ _ Ma Mc) as (x & Ex & Mx). rewrite Ex. cbn [bind]. destruct (add3 (CasM x) (CasM d) _ _ Mx Md) as (y & Ey & My). rewrite Ey. cbn [bind]. exact (add3 (CasM y) (CasM e) _ _ My Me).
Qed.
End Vehicle.
(** every output of [forward] is the same with both backends, whether the parameters are symbols or numbers *)
Theorem C57_vehicle : forall p aero tire s u sym_params, exists r, cas_vehicle_forward p aero tire s u sym_params = Ok r /\ let n := vehicle_forward p aero tire s u in
  d_vx r = d_vx n /\ d_vy r = d_vy n /\ d_yaw_rate r = d_yaw_rate n /\ (forall c, d_wheel_speed r c = d_wheel_speed n c) /\ o_ax r = o_ax n /\ o_ay r = o_ay n /\
  o_drive_torque_rl r = o_drive_torque_rl n /\ o_drive_torque_rr r = o_drive_torque_rr n /\ (forall c, o_F r c = o_F n c) /\ (forall c, o_slip_ratio r c = o_slip_ratio n c) /\ (forall c, o_slip_angle r c = o_slip_angle n c) /\
  o_res_ax r = o_res_ax n /\ o_res_ay r = o_res_ay n.
Proof.
  intros p aero tire s u b. unfold cas_vehicle_forward.
  destruct (tire3 p aero tire s u b fl) as (t1 & T1 & N1), (tire3 p aero tire s u b fr) as (t2 & T2 & N2), (tire3 p aero tire s u b rl) as (t3 & T3 & N3), (tire3 p aero tire s u b rr) as (t4 & T4 & N4). rewrite T1, T2, T3, T4. cbn [bind].
  destruct (force3 p aero tire s u b fl) as (f1 & F1 & M1), (force3 p aero tire s u b fr) as (f2 & F2 & M2), (force3 p aero tire s u b rl) as (f3 & F3 & M3), (force3 p aero tire s u b rr) as (f4 & F4 & M4). rewrite F1, F2, F3, F4. cbn [bind].
  destruct (array3 _ _ _ _ _ _ (sym_item (- fst (f_aero aero s) * (1 / 2 * air_density p * (vx s ^ 2 + vy s ^ 2)))) (num_item 0) (num_item 0)) as (d & Ed & Md). rewrite Ed. cbn [bind].
  destruct (reduce3 _ _ (force3 p aero tire s u b)) as (w & Ew & Mw). rewrite Ew. cbn [bind].
  destruct (add3 (CasM w) d _ _ Mw Md) as (t & Et & Mt). rewrite Et. cbn [bind]. destruct (reduce3 _ _ (moment3 p aero tire s u b)) as (q & Eq & Mq). rewrite Eq. cbn [bind].
  eexists. split; [reflexivity|]. cbn zeta. unfold vehicle_forward. cbn [d_vx d_vy d_yaw_rate d_wheel_speed o_ax o_ay o_drive_torque_rl o_drive_torque_rr o_F o_slip_ratio o_slip_angle o_res_ax o_res_ay].
  apply is3_entries in Mt, Mq. destruct Mt as (_ & _ & X1 & X2 & _), Mq as (_ & _ & _ & _ & X3). rewrite X1, X2, X3.
  apply is3_entries in N1, N2, N3, N4, M1, M2, M3, M4. destruct N1 as (_ & _ & N1 & _), N2 as (_ & _ & N2 & _), N3 as (_ & _ & N3 & _), N4 as (_ & _ & N4 & _).
  destruct M1 as (_ & _ & M1 & M1' & M1''), M2 as (_ & _ & M2 & M2' & M2''), M3 as (_ & _ & M3 & M3' & M3''), M4 as (_ & _ & M4 & M4' & M4'').
  repeat (split; [reflexivity|]). split; [|split; [reflexivity|split; [reflexivity|split; [reflexivity|split; [reflexivity|split; [|split; [reflexivity|split; [|split; reflexivity]]]]]]]].
  - intros [| | |]; cbn [snd]; rewrite ?N1, ?N2, ?N3, ?N4; reflexivity.
  - intros c. assert (forall v : v3, v = (X v, Y v, VehModel.Z v)) as SP by (intros [[? ?] ?]; reflexivity). rewrite (SP (f_force_body p aero tire s u c)). destruct c; cbn [snd]; rewrite ?M1, ?M2, ?M3, ?M4, ?M1', ?M2', ?M3', ?M4', ?M1'', ?M2'', ?M3'', ?M4''; reflexivity.
  - intros [| | |]; reflexivity.
Qed.
Print Assumptions C57_vehicle.

(** ** a concrete case *)
Example C57_nonvacuous :
  (exists t, lnp_where (CasM (column [1; 0; 2])) (CasM (column [5; 6; 7])) (CasM (cscalar 9)) = Ok t /\ is_mat t 3 1 (fun i _ => vget i [5; 9; 7])) /\
  (exists c, lnp_cross (CasM (column [1; 2; 3])) (Vec [4; 5; 6]) (-1) (-1) (-1) None = Ok c /\ is_mat c 3 1 (fun i _ => vget i [-3; 6; -3])) /\
  (exists t, lnp_norm (column [3; -4]) None None = Ok t /\ ce t 0 0 = 5) /\
  (exists a, lnp_array [INum 1; ISym (cscalar 2)] = Ok a /\ is_cas a = true /\ is_mat (dm a) 2 1 (fun i _ => vget i [1; 2])) /\
  agreeing (column [1; 2]) (lnp_ones 2 3).
Proof.
  split; [|split; [|split; [|split]]].
  - destruct (C57_where (CasM (column [1; 0; 2])) (CasM (column [5; 6; 7])) (CasM (cscalar 9)) 3 1) as (t & E & A & B & C).
    { now left. } { now left. } { right. split; reflexivity. } { left. split; reflexivity. }
    exists t. split; [exact E|]. split; [exact A|]. split; [exact B|]. intros i j Hi Hj. rewrite C by assumption. destruct i as [|[|[|i]]]; [..|lia]; cbn; destruct Req_EM_T; try lra; reflexivity.
  - destruct (C57_cross_vectors (CasM (column [1; 2; 3])) (Vec [4; 5; 6])) as (c & E & A & B & C); try reflexivity. exists c. split; [exact E|]. split; [exact A|]. split; [exact B|]. intros i j Hi Hj. rewrite C by assumption. destruct i as [|[|[|i]]]; [..|lia]; unfold vget; cbn [cross_entry dm column ce nth]; unfold vget; cbn [nth]; ring.
  - destruct (C57_norm_vector (column [3; -4]) 2) as ((t & E & _ & _ & _ & V) & _); [left; split; reflexivity|]. exists t. split; [exact E|]. rewrite V by lia. cbn [column cr ce List.length Nat.eqb seq map rsum]. unfold vget. cbn [nth]. replace (3 * 3 + (-4 * -4 + 0)) with (5 * 5) by ring. apply sqrt_square. lra.
  - destruct (C57_array [INum 1; ISym (cscalar 2)] [1; 2]) as (a & E & C & M). { apply Forall2_cons; [now left|]. apply Forall2_cons; [|apply Forall2_nil]. right. exists (cscalar 2). repeat split. }
    exists a. split; [exact E|]. split; [apply C; exists (cscalar 2); right; now left|exact M].
  - right. right. right. cbn. repeat split; try lia.
Qed.
