(** C61, continued: rides that follow the cycloid exist on every mesh, and satisfy all hypotheses of the general theorem. *)
From Verif Require Import Base RBase UtilsModel IoProps CollocModel CollocProofs CollocProps MeshModel MeshProps OcpModel OcpSpec BoundSpec ScaleModel ScaleSpec ConvSpec BuildModel BuildSpec BuildProofs BuildProofs5 BuildProofs6 BuildProps OrderSpec OrderProofs OrderProofs2 OrderProps OrderProps2
  BrachModel BrachSpec2 BrachProofs BrachProofs2 BrachProps2 BrachProps3 BrachProps4.
From Coq Require Import Lra.
Open Scope R_scope.

(** On every mesh of n equal intervals there is a slide with the slopes of the cycloid; so its end point is off the cycloid by O(1/n^2). *)
Theorem C61_cycloid_ride : forall n pl g k T, (2 <= n)%nat -> 0 < g -> 0 < k -> points_used n None pl -> 1 / 100 <= T <= 10 -> T <= INR n / 2 -> T / k <= PI ->
  let h := T / INR n in exists dx dy s, slides n pl g dx dy s /\ s_T s = T /\ (forall i, (i <= n)%nat -> s_th s i = (INR i * h) / k - PI / 2) /\
    let B := exp (2 * T) * (4 * T * (g / (k * k) + 2 * g / k) * (h * h)) in Rabs (dx - cyc_x g k T) <= B /\ Rabs (dy - cyc_y g k T) <= B.
Proof.
  intros n pl g k T Hn Hg Hk HP HT HTn HTk h. assert (0 < INR n) as Nn by (apply lt_0_INR; lia). assert (0 < h) as Hh by (apply Rdiv_lt_0_compat; lra). assert (INR n * h = T) as Enh by (unfold h; field; lra).
  set (th := fun i => (INR i * h) / k - PI / 2).
  set (acc := fun (r : nat -> R) => nat_rect (fun _ => R) 0 (fun i q => q + h * ((r i + r (S i)) / 2))).
  set (v := acc (fun i => - g * sin (th i))). set (x := acc (fun i => cos (th i) * v i)). set (y := acc (fun i => sin (th i) * v i)).
  set (s := {| s_T := T; s_v := v; s_x := x; s_y := y; s_th := th |}). exists (x n), (y n), s.
  assert (forall i, (i < n)%nat -> (nth (S i) pl 0 - nth i pl 0) * T = h) as HS. { intros i Hi. rewrite (piece n pl ltac:(lia) HP i Hi). unfold h. field. lra. }
  assert (slides n pl g (x n) (y n) s) as SL.
  { constructor; unfold steps; cbn [s_T s_v s_x s_y s_th s].
    - intros i Hi. rewrite (HS i Hi). change (v (S i)) with (v i + h * ((- g * sin (th i) + - g * sin (th (S i))) / 2)). ring.
    - intros i Hi. rewrite (HS i Hi). change (x (S i)) with (x i + h * ((cos (th i) * v i + cos (th (S i)) * v (S i)) / 2)). ring.
    - intros i Hi. rewrite (HS i Hi). change (y (S i)) with (y i + h * ((sin (th i) * v i + sin (th (S i)) * v (S i)) / 2)). ring.
    - exact HT.
    - intros i Hi. unfold th. assert (INR i * h / k <= T / k) as U. { unfold Rdiv. apply Rmult_le_compat_r; [left; now apply Rinv_0_lt_compat|]. rewrite <- Enh. apply Rmult_le_compat_r; [lra|]. now apply le_INR. }
      assert (0 <= INR i * h / k) by (unfold Rdiv; apply Rmult_le_pos; [apply Rmult_le_pos; [apply pos_INR|lra]|left; now apply Rinv_0_lt_compat]). lra.
    - repeat split; reflexivity.
    - split; reflexivity. }
  split; [exact SL|]. split; [reflexivity|]. split; [reflexivity|].
  destruct (C61_cycloid n pl g k (x n) (y n) s Hn Hg Hk HP SL HTn ltac:(reflexivity) n ltac:(lia)) as (_ & X & Y). cbn [s_T s_x s_y s] in X, Y. fold h in X, Y. rewrite Enh in X, Y. split; assumption.
Qed.
Print Assumptions C61_cycloid_ride.

(** the model of the example: its derivatives depend on the states with Lipschitz constant 1, and the cycloid is a motion of it *)
Definition brach_fwd (g : R) (ds di : dict R) (mesh : R) : result (dict R * dict R) := time_forward [("gravity", g)] ds di.
Definition everywhere (ds di : dict R) (mesh : R) : Prop := True.
Definition cyc_th (k : R) (nm : string) (t : R) : R := / k * t - PI / 2.
Lemma brach_shape : forall g ds di m sd out, brach_fwd g ds di m = Ok (sd, out) -> exists v th, dget "v" ds = Some v /\ dget "theta" di = Some th /\ sd = [("v", - g * sin th); ("x", cos th * v); ("y", sin th * v)].
Proof.
  intros g ds di m sd out. unfold brach_fwd, time_forward, lookup_err. destruct (dget "theta" di) as [th|]; [|discriminate]. destruct (dget "v" ds) as [v|]; [|discriminate]. intro H. exists v, th. repeat split. cbn in H. now inversion H.
Qed.
Lemma brach_lipschitz : forall g, lipschitz time_states (brach_fwd g) everywhere 1.
Proof.
  intros g ds ds' di m sd out sd' out' E _ _ F F' HE nm w w' Hnm Hw Hw'. destruct (brach_shape _ _ _ _ _ _ F) as (v & th & V & TH & ->). destruct (brach_shape _ _ _ _ _ _ F') as (v' & th' & V' & TH' & ->). rewrite TH in TH'. inversion TH'; subst th'.
  pose proof (HE "v" v v' ltac:(now left) V V') as EV. rewrite Rmult_1_l. assert (0 <= E) as HE0 by (eapply Rle_trans; [apply Rabs_pos|exact EV]).
  assert (forall c, Rabs c <= 1 -> Rabs (c * v - c * v') <= E) as W. { intros c Hc. rewrite <- Rmult_minus_distr_l, Rabs_mult. rewrite <- (Rmult_1_l E). apply Rmult_le_compat; try apply Rabs_pos; assumption. }
  destruct Hnm as [<-|[<-|[<-|[]]]]; cbn in Hw, Hw'; inversion Hw; inversion Hw'; subst.
  - rewrite Rminus_diag_eq, Rabs_R0 by reflexivity. exact HE0.
  - apply W, abs_cos.
  - apply W, abs_sin.
Qed.
Lemma brach_motion : forall g k lo hi, 0 < g -> 0 < k -> OrderSpec.motion time_states brach_inputs (brach_fwd g) everywhere lo hi 2 (g / (k * k) + 2 * g / k) (cyc_th k) (cyc g k).
Proof.
  intros g k lo hi Hg Hk. constructor.
  - intros t ds di _ [K1 K2] [I1 I2]. split; [exact I|]. destruct (dget_keys ds "v" ltac:(rewrite K1; now left)) as (v & V). destruct (dget_keys di "theta" ltac:(rewrite I1; now left)) as (th & TH).
    unfold brach_fwd, time_forward, lookup_err. rewrite V, TH. cbn -[cyc sin cos]. eexists _, _. split; [reflexivity|]. rewrite (K2 _ _ V), (I2 _ _ TH). destruct (cyc_model g k t ltac:(lra)) as (C1 & C2 & C3). unfold cyc_th.
    intros nm [<-|[<-|[<-|[]]]]; cbn -[cyc sin cos]; f_equal; symmetry; [exact C1|exact C2|exact C3].
  - intros nm d t _ Hd _. apply cyc_smooth; [lra|exact Hd].
  - intros nm t _ _. unfold Rdiv. now apply cyc_bound.
Qed.

(** All hypotheses of C61_converges are met by the time-domain problem of the example on every mesh that is fine enough. *)
Example C61_nonvacuous : forall roots n, oracle_ok roots None -> (2 <= n)%nat ->
  exists o pts x dx dy, let h := 1 / INR n in let at_ i j := (nth i pts 0 + unit_point trapezoidal j * interval_length pts i) * 1 in
    trajectory o time_states brach_inputs [] [] (brach_fwd (981 / 100)) trapezoidal n pts None None (map of_bound time_bounds) (map of_bc (time_bcs dx dy)) x /\ mesh_length o None x 1 /\
    (forall i, (i < n)%nat -> 0 < interval_length pts i * 1 <= h) /\
    OrderSpec.motion time_states brach_inputs (brach_fwd (981 / 100)) everywhere (nth 0 pts 0 * 1) (nth n pts 0 * 1) (order_of "Trapezoidal" (t_stages trapezoidal)) (981 / 100 / (1 * 1) + 2 * (981 / 100) / 1) (cyc_th 1) (cyc (981 / 100) 1) /\
    lipschitz time_states (brach_fwd (981 / 100)) everywhere 1 /\
    (forall i j nm v, (i < n)%nat -> (j < t_stages trapezoidal)%nat -> In nm brach_inputs -> val o x "inputs" nm (stage_of trapezoidal i j) v -> v = cyc_th 1 nm (at_ i j)) /\
    (forall nm v, In nm time_states -> val o x "states" nm 0 v -> Rabs (v - cyc (981 / 100) 1 nm 0%nat (nth 0 pts 0 * 1)) <= 0).
Proof.
  intros roots n HO Hn. set (g := 981 / 100). assert (0 < g) as Hg by (unfold g; lra). assert (2 <= INR n) as Nn by (apply (le_INR 2); lia).
  set (pl := map (fun i => INR i / INR n) (seq 0 (n + 1))).
  assert (forall i, (i <= n)%nat -> nth i pl 0 = INR i / INR n) as PLN. { intros i Hi. unfold pl. rewrite (nth_map_in _ _ _ _ _ _ 0%nat) by (rewrite seq_length; lia). now rewrite seq_nth by lia. }
  assert (points_used n None pl) as HP by (split; [unfold pl; now rewrite map_length, seq_length|exact PLN]).
  pose proof PI_RGT_0. pose proof PI2_3_2 as P3.
  destruct (C61_cycloid_ride n pl g 1 1 Hn Hg ltac:(lra) HP ltac:(lra) ltac:(lra) ltac:(lra)) as (dx & dy & s & SL & ET & ETH & _).
  set (jac := fun (con : list string) (w : list R) (m p : R) => @nil R). set (hess := fun (con : list string) (w l : list R) (m p : R) => @nil R). set (js := fun con : list string => (@nil nat, @nil nat)).
  assert (sizes jac hess js js) as HZ. { split; [reflexivity|]. split; [reflexivity|]. split; (split; [reflexivity|]; split; constructor). }
  destruct (C59_accepts roots jac hess js js n dx dy [] g [] HZ HO ltac:(lia) ltac:(constructor) ltac:(constructor) ltac:(intros z [])) as (a & HA).
  destruct (the_facts roots R (time_model jac hess js js) (time_config n dx dy []) None g [] a HO ltac:(cbn; lia) (ltac:(discriminate)) (time_model_ok jac hess js js HZ) HA ltac:(constructor)) as (o & fm & pl' & ops & h' & F).
  pose proof (fa_built _ _ _ _ _ _ _ _ _ _ _ _ _ F) as BU. pose proof (fa_tr _ _ _ _ _ _ _ _ _ _ _ _ _ F) as TR. pose proof (fa_ns _ _ _ _ _ _ _ _ _ _ _ _ _ F) as NS.
  match type of TR with ?l = _ => change l with (Ok trapezoidal) in TR end. injection TR as TR. rewrite <- TR in NS.
  assert (num_stages (oc_op o) = (n + 1)%nat) as NS'. { change (num_stages (oc_op o) = (n * 1 + 1)%nat) in NS. lia. }
  destruct (slide_vector roots n None o jac hess js js g s BU HZ NS') as (x & RX).
  exists o, pl, x, dx, dy. cbv zeta. assert (forall i, (i < n)%nat -> interval_length pl i = / INR n) as IL by (intros i Hi; unfold interval_length; now rewrite (piece n pl ltac:(lia) HP i Hi)).
  assert (nth 0 pl 0 = 0) as P0 by (rewrite PLN by lia; cbn; field; lra).
  split; [exact (slides_traj o n pl g dx dy NS' ltac:(lia) x s RX SL)|]. split; [pose proof (rc_T _ _ _ _ _ RX) as Q; rewrite ET in Q; exact Q|]. split; [|split; [|split; [|split]]].
  - intros i Hi. rewrite (IL i Hi). assert (0 < / INR n) by (apply Rinv_0_lt_compat; lra). unfold Rdiv. lra.
  - apply brach_motion; lra.
  - apply brach_lipschitz.
  - intros i j nm v Hi Hj [<-|[]] HV. cbn in Hj. change (stage_of trapezoidal i j) with (i * 1 + j)%nat in HV. rewrite Nat.mul_1_r in HV. destruct (rc_at _ _ _ _ _ RX (i + j)%nat ltac:(lia)) as (_ & _ & _ & V & _). unfold val, value_at in HV, V. rewrite V in HV. inversion HV as [E]. rewrite (ETH (i + j)%nat ltac:(lia)), plus_INR.
    unfold cyc_th. rewrite (IL i Hi), PLN by lia. assert (unit_point trapezoidal j = INR j) as ->; [destruct j as [|[|j]]; [reflexivity|reflexivity|lia]|]. field. lra.
  - intros nm v Hnm HV. destruct (rc_at _ _ _ _ _ RX 0%nat ltac:(lia)) as (V1 & V2 & V3 & _). destruct (sl_start _ _ _ _ _ _ SL) as (S1 & S2 & S3). rewrite S1 in V1. rewrite S2 in V2. rewrite S3 in V3. rewrite P0. unfold val, value_at in *.
    assert (v = 0) as ->. { destruct Hnm as [<-|[<-|[<-|[]]]]; congruence. }
    assert (cyc g 1 nm 0 (0 * 1) = 0) as ->; [|rewrite Rminus_diag_eq, Rabs_R0 by reflexivity; lra]. rewrite Rmult_0_l. unfold cyc, cyc_v, cyc_x, cyc_y. rewrite !Rmult_0_r, sin_0, cos_0. destruct (String.eqb nm "v"); [ring|]. destruct (String.eqb nm "x"); field.
Qed.
