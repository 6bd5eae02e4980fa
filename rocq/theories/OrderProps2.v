(** C61, continued: convergence as the mesh is refined, the lap time, and the brachistochrone along the cycloid with explicit constants. *)
From Verif Require Import Base RBase UtilsModel IoProps CollocModel CollocProofs CollocProps MeshModel MeshProps OcpModel OcpSpec BoundSpec BuildModel BuildSpec OrderSpec OrderProofs OrderProofs2 OrderProps BrachModel BrachSpec2 BrachProofs BrachProps2 BrachProps4.
From Coq Require Import Lra.
Open Scope R_scope.

(** For a given model, region, inputs and motion: every accuracy is reached on all meshes of the given range that are fine enough, by all trajectories that start on
    the motion and use its inputs - whatever the number of intervals, their distribution, and the other variables. *)
Theorem C61_refines : forall roots name ns t, oracle_ok roots ns -> make_transcription roots name ns = Ok t ->
  forall st inp fwd G K M lo hi u Y eps, OrderSpec.motion st inp fwd G lo hi (order_of name (t_stages t)) M u Y -> lipschitz st fwd G K -> 0 <= K -> 0 <= M -> lo <= hi -> 0 < eps ->
  exists delta, 0 < delta /\ forall o con res n pts fixed cyclic bounds bcs x L,
    let at_ i j := (nth i pts 0 + unit_point t j * interval_length pts i) * L in
    trajectory o st inp con res fwd t n pts fixed cyclic bounds bcs x -> mesh_length o fixed x L -> nth 0 pts 0 * L = lo -> nth n pts 0 * L = hi ->
    (forall i, (i < n)%nat -> 0 < interval_length pts i * L <= delta) ->
    (forall i j nm v, (i < n)%nat -> (j < t_stages t)%nat -> In nm inp -> val o x "inputs" nm (stage_of t i j) v -> v = u nm (at_ i j)) ->
    (forall i j ds di, (i < n)%nat -> (j < t_stages t)%nat -> holds o x "states" st (stage_of t i j) ds -> holds o x "inputs" inp (stage_of t i j) di -> G ds di (at_ i j)) ->
    (forall nm v, In nm st -> val o x "states" nm 0 v -> v = Y nm 0%nat lo) ->
    forall i j nm, (i < n)%nat -> (j < t_stages t)%nat -> In nm st -> exists v, val o x "states" nm (stage_of t i j) v /\ Rabs (v - Y nm 0%nat (at_ i j)) <= eps.
Proof.
  intros roots name ns t HO HT st inp fwd G K M lo hi u Y eps MO LI HK HM HLH He. destruct (C61_converges roots name ns t HO HT) as (C & HC & H). destruct (every_scheme roots name ns t HO HT) as (a & A & _ & SC & _). pose proof (sc_q _ _ _ _ _ SC) as Hq. clear a A SC.
  set (q := order_of name (t_stages t)) in *.
  set (B := exp (C * K * (hi - lo)) * (C * (hi - lo) * M)). assert (0 <= B) as HB. { unfold B. apply Rmult_le_pos; [left; apply exp_pos|]. repeat apply Rmult_le_pos; lra. }
  assert (0 <= C * K) as HCK by (apply Rmult_le_pos; lra).
  set (delta := Rmin 1 (Rmin (/ (C * K + 1)) (eps / (B + 1)))). assert (0 < delta) as HD. { unfold delta. apply Rmin_pos; [lra|]. apply Rmin_pos; [apply Rinv_0_lt_compat; lra|apply Rdiv_lt_0_compat; lra]. }
  assert (delta <= 1) as D1 by apply Rmin_l. assert (delta <= / (C * K + 1)) as D2 by (unfold delta; eapply Rle_trans; [apply Rmin_r|apply Rmin_l]). assert (delta <= eps / (B + 1)) as D3 by (unfold delta; eapply Rle_trans; [apply Rmin_r|apply Rmin_r]). clearbody delta.
  exists delta. split; [exact HD|]. intros o con res n pts fixed cyclic bounds bcs x L at_ TJ ML E0 E1 HS HU HG HY i j nm Hi Hj Hnm.
  destruct (H o st inp con res fwd n pts fixed cyclic bounds bcs x L delta G K M 0 u Y TJ ML HS ltac:(rewrite E0, E1; exact MO) LI HU HG) with (i := i) (j := j) (nm := nm) as (v & V1 & V2); try assumption; try lra.
  - intros nm' v Hn' Hv. rewrite E0, (HY nm' v Hn' Hv). rewrite Rminus_diag_eq, Rabs_R0 by reflexivity. lra.
  - apply Rle_trans with (C * K * / (C * K + 1)); [apply Rmult_le_compat_l; assumption|]. apply Rmult_le_reg_r with (C * K + 1); [lra|]. rewrite Rmult_assoc, Rinv_l by lra. lra.
  - exists v. split; [exact V1|]. eapply Rle_trans; [exact V2|]. rewrite E0, E1, Rplus_0_l. fold q.
    assert (delta ^ q <= delta) as HP. { destruct q as [|q']; [lia|]. cbn [pow]. rewrite <- (Rmult_1_r delta) at 3. apply Rmult_le_compat_l; [lra|]. rewrite <- (pow1 q'). apply pow_incr. lra. }
    replace (exp (C * K * (hi - lo)) * (C * (hi - lo) * M * delta ^ q)) with (B * delta ^ q) by (unfold B; ring).
    apply Rle_trans with (B * (eps / (B + 1))); [apply Rmult_le_compat_l; lra|]. apply Rmult_le_reg_r with (B + 1); [lra|]. replace (B * (eps / (B + 1)) * (B + 1)) with (B * eps) by (field; lra). assert (0 <= eps) by lra. lra.
Qed.
Print Assumptions C61_refines.

(** The cost of a minimal time problem on a fixed mesh is as accurate as the state "time". *)
Theorem C61_lap_time : forall roots name ns t, oracle_ok roots ns -> make_transcription roots name ns = Ok t ->
  exists C, 0 < C /\ forall o st inp con res fwd n pts L cyclic bounds bcs x h G K M u Y c,
    let at_ i j := (nth i pts 0 + unit_point t j * interval_length pts i) * L in
    let lo := nth 0 pts 0 * L in let hi := nth n pts 0 * L in let q := order_of name (t_stages t) in (1 <= n)%nat -> In "time" st ->
    trajectory o st inp con res fwd t n pts (Some L) cyclic bounds bcs x -> time_spent o t n (Some L) x c ->
    (forall i, (i < n)%nat -> 0 < interval_length pts i * L <= h) ->
    OrderSpec.motion st inp fwd G lo hi q M u Y -> lipschitz st fwd G K ->
    (forall i j nm v, (i < n)%nat -> (j < t_stages t)%nat -> In nm inp -> val o x "inputs" nm (stage_of t i j) v -> v = u nm (at_ i j)) ->
    (forall i j ds di, (i < n)%nat -> (j < t_stages t)%nat -> holds o x "states" st (stage_of t i j) ds -> holds o x "inputs" inp (stage_of t i j) di -> G ds di (at_ i j)) ->
    (forall nm v, In nm st -> val o x "states" nm 0 v -> v = Y nm 0%nat lo) ->
    0 <= h -> 0 <= M -> 0 <= K -> C * K * h <= 1 ->
    Rabs (c - (Y "time" 0%nat hi - Y "time" 0%nat lo)) <= exp (C * K * (hi - lo)) * (C * (hi - lo) * M * h ^ q).
Proof.
  intros roots name ns t HO HT. destruct (C61_converges roots name ns t HO HT) as (C & HC & H). destruct (every_scheme roots name ns t HO HT) as (a & A & _ & SC & _). pose proof (sc_m _ _ _ _ _ SC) as Hm. pose proof (sc_last _ _ _ _ _ SC) as H1. clear a A SC.
  exists C. split; [exact HC|]. intros o st inp con res fwd n pts L cyclic bounds bcs x h G K M u Y c at_ lo hi q Hn HTi TJ (t0 & t1 & V0 & V1 & ->) HS MO LI HU HG HY Hh HM HK Hs.
  destruct (H o st inp con res fwd n pts (Some L) cyclic bounds bcs x L h G K M 0 u Y TJ eq_refl HS MO LI HU HG) with (i := (n - 1)%nat) (j := (t_stages t - 1)%nat) (nm := "time") as (v & W1 & W2); try assumption; try lra; try lia.
  - intros nm' v Hn' Hv. rewrite (HY nm' v Hn' Hv). unfold lo. rewrite Rminus_diag_eq, Rabs_R0 by reflexivity. lra.
  - rewrite Rplus_0_l in W2. rewrite H1 in W2. unfold interval_length in W2. replace (S (n - 1)) with n in W2 by lia.
    replace ((nth (n - 1) pts 0 + 1 * (nth n pts 0 - nth (n - 1) pts 0)) * L) with hi in W2 by (unfold hi; ring).
    assert (stage_of t (n - 1) (t_stages t - 1) = (n * (t_stages t - 1))%nat) as ES. { unfold stage_of. replace n with (S (n - 1)) at 2 by lia. lia. }
    rewrite ES in W1. assert (v = t1) as <-. { unfold val, value_at in W1, V1. congruence. }
    rewrite (HY "time" t0 HTi V0). replace (v - Y "time" 0%nat lo - (Y "time" 0%nat hi - Y "time" 0%nat lo)) with (v - Y "time" 0%nat hi) by ring. exact W2.
Qed.
Print Assumptions C61_lap_time.

(** ** The brachistochrone along the cycloid *)
(** speed and position after time [t] on the cycloid whose circle rolls an angle of 2/k per unit of time *)
Definition cyc_v (g k t : R) : R := g * k * sin (/ k * t).
Definition cyc_x (g k t : R) : R := g * (k * k) / 4 * (2 * / k * t - sin (2 * / k * t)).
Definition cyc_y (g k t : R) : R := - (g * (k * k) / 4 * (1 - cos (2 * / k * t))).
Definition cyc (g k : R) (nm : string) (d : nat) (t : R) : R :=
  if String.eqb nm "v" then match d with 0%nat => cyc_v g k t | 1%nat => g * cos (/ k * t) | 2%nat => - (g * / k * sin (/ k * t)) | _ => - (g * (/ k * / k) * cos (/ k * t)) end
  else if String.eqb nm "x" then match d with 0%nat => cyc_x g k t | 1%nat => g * k / 2 * (1 - cos (2 * / k * t)) | 2%nat => g * sin (2 * / k * t) | _ => 2 * g * / k * cos (2 * / k * t) end
  else match d with 0%nat => cyc_y g k t | 1%nat => - (g * k / 2 * sin (2 * / k * t)) | 2%nat => - (g * cos (2 * / k * t)) | _ => 2 * g * / k * sin (2 * / k * t) end.
Lemma cyc_smooth : forall g k nm d t, k <> 0 -> (d <= 2)%nat -> derivable_pt_lim (cyc g k nm d) t (cyc g k nm (S d) t).
Proof.
  intros g k nm d t Hk Hd. unfold cyc. destruct (String.eqb nm "v"); [|destruct (String.eqb nm "x")]; (destruct d as [|[|[|d]]]; [| | |lia]).
  - unfold cyc_v. apply lim_eq with (g * k * (cos (/ k * t) * / k)); [field; exact Hk|]. apply (lim_scal (fun t => sin (/ k * t))), lim_sin_lin.
  - apply lim_eq with (g * (- sin (/ k * t) * / k)); [ring|]. apply (lim_scal (fun t => cos (/ k * t))), lim_cos_lin.
  - apply lim_eq with (- (g * / k * (cos (/ k * t) * / k))); [ring|]. apply (lim_opp (fun t => g * / k * sin (/ k * t))). apply (lim_scal (fun t => sin (/ k * t))), lim_sin_lin.
  - unfold cyc_x. apply lim_eq with (g * (k * k) / 4 * (2 * / k - cos (2 * / k * t) * (2 * / k))); [field; exact Hk|]. apply (lim_scal (fun t => 2 * / k * t - sin (2 * / k * t))). apply (lim_minus (fun t => 2 * / k * t)); [apply lim_lin|apply lim_sin_lin].
  - apply lim_eq with (g * k / 2 * (0 - - sin (2 * / k * t) * (2 * / k))); [field; exact Hk|]. apply (lim_scal (fun t => 1 - cos (2 * / k * t))). apply (lim_minus (fun _ => 1)); [apply derivable_pt_lim_const|apply lim_cos_lin].
  - apply lim_eq with (g * (cos (2 * / k * t) * (2 * / k))); [ring|]. apply (lim_scal (fun t => sin (2 * / k * t))), lim_sin_lin.
  - unfold cyc_y. apply lim_eq with (- (g * (k * k) / 4 * (0 - - sin (2 * / k * t) * (2 * / k)))); [field; exact Hk|]. apply (lim_opp (fun t => g * (k * k) / 4 * (1 - cos (2 * / k * t)))). apply (lim_scal (fun t => 1 - cos (2 * / k * t))). apply (lim_minus (fun _ => 1)); [apply derivable_pt_lim_const|apply lim_cos_lin].
  - apply lim_eq with (- (g * k / 2 * (cos (2 * / k * t) * (2 * / k)))); [field; exact Hk|]. apply (lim_opp (fun t => g * k / 2 * sin (2 * / k * t))). apply (lim_scal (fun t => sin (2 * / k * t))), lim_sin_lin.
  - apply lim_eq with (- (g * (- sin (2 * / k * t) * (2 * / k)))); [ring|]. apply (lim_opp (fun t => g * cos (2 * / k * t))). apply (lim_scal (fun t => cos (2 * / k * t))), lim_cos_lin.
Qed.
Lemma abs_sin : forall t, Rabs (sin t) <= 1. Proof. intro t. apply Rabs_le. apply SIN_bound. Qed.
Lemma abs_cos : forall t, Rabs (cos t) <= 1. Proof. intro t. apply Rabs_le. apply COS_bound. Qed.
Lemma cyc_bound : forall g k nm t, 0 < g -> 0 < k -> Rabs (cyc g k nm 3 t) <= g * / (k * k) + 2 * g * / k.
Proof.
  intros g k nm t Hg Hk. assert (0 < / k) as Ik by (now apply Rinv_0_lt_compat). rewrite Rinv_mult. assert (0 < g * (/ k * / k)) as P1 by (repeat apply Rmult_lt_0_compat; assumption). assert (0 < 2 * g * / k) as P2 by (repeat apply Rmult_lt_0_compat; lra).
  assert (forall p s, 0 < p -> Rabs s <= 1 -> Rabs (p * s) <= p) as B. { intros p s Hp Hs. rewrite Rabs_mult, (Rabs_right p) by lra. rewrite <- (Rmult_1_r p) at 2. apply Rmult_le_compat_l; lra. }
  unfold cyc. destruct (String.eqb nm "v"); [|destruct (String.eqb nm "x")].
  - rewrite Rabs_Ropp. pose proof (B _ _ P1 (abs_cos (/ k * t))). lra.
  - pose proof (B _ _ P2 (abs_cos (2 * / k * t))). lra.
  - pose proof (B _ _ P2 (abs_sin (2 * / k * t))). lra.
Qed.
Lemma cyc_model : forall g k t, let th := / k * t - PI / 2 in k <> 0 ->
  cyc g k "v" 1 t = - g * sin th /\ cyc g k "x" 1 t = cos th * cyc_v g k t /\ cyc g k "y" 1 t = sin th * cyc_v g k t.
Proof.
  intros g k t th Hk. unfold th. assert (sin (/ k * t - PI / 2) = - cos (/ k * t)) as -> by (rewrite sin_minus, sin_PI2, cos_PI2; ring). assert (cos (/ k * t - PI / 2) = sin (/ k * t)) as -> by (rewrite cos_minus, sin_PI2, cos_PI2; ring).
  unfold cyc, cyc_v. cbn [String.eqb Ascii.eqb Bool.eqb]. split; [ring|]. split.
  - replace (2 * / k * t) with (2 * (/ k * t)) by ring. rewrite cos_2a_sin. field.
  - replace (2 * / k * t) with (2 * (/ k * t)) by ring. rewrite sin_2a. field.
Qed.

(** A slide whose slopes at the points of the mesh are those of the cycloid stays within 4 T M (T/n)^2 exp (2 T) of the cycloid. *)
Theorem C61_cycloid : forall n pl g k dx dy s, (2 <= n)%nat -> 0 < g -> 0 < k -> points_used n None pl -> slides n pl g dx dy s -> s_T s <= INR n / 2 ->
  let T := s_T s in let h := T / INR n in let M := g / (k * k) + 2 * g / k in
  (forall i, (i <= n)%nat -> s_th s i = (INR i * h) / k - PI / 2) ->
  forall i, (i <= n)%nat -> let B := exp (2 * T) * (4 * T * M * (h * h)) in
    Rabs (s_v s i - cyc_v g k (INR i * h)) <= B /\ Rabs (s_x s i - cyc_x g k (INR i * h)) <= B /\ Rabs (s_y s i - cyc_y g k (INR i * h)) <= B.
Proof.
  intros n pl g k dx dy s Hn Hg Hk HP SL HTn T h M HTH i0 Hi0 B. destruct SL as [S1 S2 S3 S4 _ (I1 & I2 & I3) _]. assert (0 < INR n) as Nn by (apply lt_0_INR; lia). assert (0 < T) as HT by (unfold T; lra).
  assert (0 < h) as Hh by (apply Rdiv_lt_0_compat; lra). assert (INR n * h = T) as Enh by (unfold h; field; lra).
  assert (0 < M) as HM. { unfold M. apply Rplus_lt_0_compat; apply Rdiv_lt_0_compat; try lra. apply Rmult_lt_0_compat; lra. }
  assert (forall i, (i < n)%nat -> (nth (S i) pl 0 - nth i pl 0) * T = h) as HS. { intros i Hi. rewrite (piece n pl ltac:(lia) HP i Hi). unfold h. field. lra. }
  assert (forall i, INR (S i) * h - INR i * h = h) as ES by (intro i; rewrite S_INR; ring).
  set (X := fun nm i => if String.eqb nm "v" then s_v s i else if String.eqb nm "x" then s_x s i else s_y s i).
  set (D := fun nm i => if String.eqb nm "v" then - g * sin (s_th s i) else if String.eqb nm "x" then cos (s_th s i) * s_v s i else sin (s_th s i) * s_v s i).
  destruct trapezoidal_scheme as (a0 & A0 & _). clear a0 A0.
  set (a := fun (j k : nat) => match j with 1%nat => 1 / 2 | _ => 0 end).
  assert (scheme 2 2 (unit_point trapezoidal) a 1) as SC.
  { constructor; try reflexivity; try lia.
    - intros j Hj. destruct j as [|[|j]]; [cbn; lra|cbn; lra|lia].
    - intros j p F Hj Lp HF. rewrite (same_deriv_same_incr F (peval (pinteg p)) (peval p) HF (pinteg_deriv p)). destruct p as [|b [|b2 [|? ?]]]; [| | |cbn in Lp; lia]; (destruct j as [|[|j]]; [cbn; lra|cbn; lra|lia]).
    - intros j Hj. destruct j as [|[|j]]; [cbn; rewrite Rabs_R0; lra|cbn; rewrite Rabs_right; lra|lia]. }
  pose proof (all_intervals ["v"; "x"; "y"] 2 2 (unit_point trapezoidal) a 1 SC ltac:(lra) n (fun i => INR i * h) X D (cyc g k) h M 1 0) as AI.
  specialize (AI ltac:(lra) ltac:(lra) ltac:(lra) ltac:(lra)). specialize (AI ltac:(unfold h; apply Rmult_le_reg_r with (INR n); [exact Nn|]; replace (T / INR n * 1 * 1 * INR n) with T by (field; lra); unfold T; lra)).
  specialize (AI ltac:(intros i _; cbn beta; rewrite ES; lra)).
  assert (forall i nm, (i < n)%nat -> X nm (S i) = X nm i + h * ((D nm i + D nm (S i)) / 2)) as ST.
  { intros i nm Hi. pose proof (S1 i Hi) as Q1. pose proof (S2 i Hi) as Q2. pose proof (S3 i Hi) as Q3. cbn beta in Q1, Q2, Q3. fold T in Q1, Q2, Q3. rewrite (HS i Hi) in Q1, Q2, Q3. unfold X, D. destruct (String.eqb nm "v"); [lra|]. destruct (String.eqb nm "x"); lra. }
  assert (forall i nm j, (i < n)%nat -> In nm ["v"; "x"; "y"] -> (j < 2)%nat -> Rabs (X nm (i * (2 - 1) + j)%nat - cyc g k nm 0 (INR i * h + unit_point trapezoidal j * (INR (S i) * h - INR i * h))) <= exp (2 * 1 * 1 * (INR (S i) * h - INR 0 * h)) * (0 + 2 * (1 + 1) * M * h ^ 2 * (INR (S i) * h - INR 0 * h))) as AI'.
  { apply AI; clear AI.
    - intros i nm j Hi _ Hj. rewrite ES. replace (i * (2 - 1))%nat with i by lia. destruct j as [|[|j]]; [| |lia].
      + cbn [a seq map rsum]. rewrite Nat.add_0_r. ring.
      + cbn [a seq map rsum]. rewrite Nat.add_0_r, Nat.add_1_r, (ST i nm Hi). field.
    - intros i j E Hi Hj HE nm Hnm. rewrite ES in *. replace (i * (2 - 1) + j)%nat with (i + j)%nat in * by lia.
      assert (INR i * h + unit_point trapezoidal j * h = INR (i + j) * h) as ET. { rewrite plus_INR. destruct j as [|[|j]]; [cbn; ring|cbn; ring|lia]. }
      rewrite ET in *. destruct (cyc_model g k (INR (i + j) * h) ltac:(lra)) as (C1 & C2 & C3). rewrite (Rmult_comm (/ k)) in C1, C2, C3. fold (INR (i + j) * h / k) in C1, C2, C3. rewrite <- (HTH (i + j)%nat ltac:(lia)) in C1, C2, C3.
      pose proof (HE "v" ltac:(now left)) as EV. change (X "v" (i + j)%nat) with (s_v s (i + j)) in EV. change (cyc g k "v" 0 (INR (i + j) * h)) with (cyc_v g k (INR (i + j) * h)) in EV.
      assert (0 <= E) as HE0 by (eapply Rle_trans; [apply Rabs_pos|exact EV]). rewrite Rmult_1_l.
      assert (forall w, Rabs w <= 1 -> Rabs (w * s_v s (i + j) - w * cyc_v g k (INR (i + j) * h)) <= E) as W.
      { intros w Hw. rewrite <- Rmult_minus_distr_l, Rabs_mult. rewrite <- (Rmult_1_l E). apply Rmult_le_compat; try apply Rabs_pos; assumption. }
      destruct Hnm as [<-|[<-|[<-|[]]]]; unfold D; cbn [String.eqb Ascii.eqb Bool.eqb].
      + rewrite C1, Rminus_diag_eq, Rabs_R0 by reflexivity. exact HE0.
      + rewrite C2. apply W, abs_cos.
      + rewrite C3. apply W, abs_sin.
    - intros nm d t _ Hd _. apply cyc_smooth; [lra|exact Hd].
    - intros nm t _ _. unfold M. pose proof (cyc_bound g k nm t Hg Hk). unfold Rdiv. exact H.
    - intros nm _. rewrite Rmult_0_l. unfold X, cyc, cyc_v, cyc_x, cyc_y. rewrite !Rmult_0_r, sin_0, cos_0, I1, I2, I3. destruct (String.eqb nm "v"); [|destruct (String.eqb nm "x")]; (match goal with |- Rabs ?e <= 0 => replace e with 0 by (field; lra) end); rewrite Rabs_R0; lra. }
  assert (forall nm, In nm ["v"; "x"; "y"] -> Rabs (X nm i0 - cyc g k nm 0 (INR i0 * h)) <= B) as FIN.
  { intros nm Hnm.
    assert (exists i j, (i < n)%nat /\ (j < 2)%nat /\ i0 = (i + j)%nat) as (i & j & Hi & Hj & Eij). { destruct (Nat.eq_dec i0 n) as [->|N]; [exists (n - 1)%nat, 1%nat; lia|exists i0, 0%nat; lia]. }
    specialize (AI' i nm j Hi Hnm Hj). rewrite ES in AI'. replace (i * (2 - 1) + j)%nat with i0 in AI' by lia.
    assert (INR i * h + unit_point trapezoidal j * h = INR i0 * h) as ET. { rewrite Eij, plus_INR. destruct j as [|[|j]]; [cbn; ring|cbn; ring|lia]. }
    rewrite ET in AI'. eapply Rle_trans; [exact AI'|]. unfold B. change (INR 0) with 0. rewrite Rmult_0_l, Rminus_0_r, Rplus_0_l. assert (INR (S i) * h <= T) as LT. { rewrite <- Enh. apply Rmult_le_compat_r; [lra|]. apply le_INR. lia. }
    assert (0 <= INR (S i) * h) by (apply Rmult_le_pos; [apply pos_INR|lra]).
    apply Rmult_le_compat; [left; apply exp_pos| | |].
    - apply Rmult_le_pos; [|assumption]. apply Rmult_le_pos; [lra|]. apply pow_le. lra.
    - destruct LT as [LT|LT]; [left; apply exp_increasing; lra|]. rewrite LT. replace (2 * 1 * 1 * T) with (2 * T) by ring. lra.
    - replace (4 * T * M * (h * h)) with (4 * M * (h * h) * T) by ring. replace (2 * (1 + 1) * M * h ^ 2 * (INR (S i) * h)) with (4 * M * (h * h) * (INR (S i) * h)) by (cbn [pow]; ring). apply Rmult_le_compat_l; [|exact LT]. apply Rmult_le_pos; [lra|]. apply Rmult_le_pos; lra. }
  split; [exact (FIN "v" ltac:(now left))|]. split; [exact (FIN "x" ltac:(right; now left))|exact (FIN "y" ltac:(right; right; now left))].
Qed.
Print Assumptions C61_cycloid.
