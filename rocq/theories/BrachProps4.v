(** C59, continued: the problem is accepted; the energy of the discretized ride, and what it allows; the distance model. *)
From Verif Require Import Base RBase TreeModel UtilsModel UtilsProofs IoModel CollocModel CollocProofs CollocProps MeshModel MeshProps OcpModel OcpSpec OcpProofs OcpProps NlpModel NlpSpec AlgModel AlgSpec ConvModel ConvSpec CyclicSpec BoundModel BoundSpec ScaleModel ScaleSpec
  BuildModel BuildSpec BuildProofs BuildProofs4 BuildProofs5 BuildProofs6 BuildProps BuildProps2 BuildProps3 GuessProofs LapModel BrachModel BrachSpec BrachSpec2 BrachProofs BrachProofs2 BrachProps BrachProps2 BrachProps3.
From Coq Require Import Lra Ratan.
Open Scope R_scope.

(** The problem is accepted for every number of intervals and every end point, with any scales for existing variables; so are later changes. *)
Theorem C59_accepts : forall roots jac hess js hs n dx dy scales g cs, sizes jac hess js hs -> oracle_ok roots None -> (1 <= n)%nat ->
  let known c := known_var time_states brach_inputs [] None (sc_g c) (sc_n c) in
  Forall known scales -> Forall tunes cs -> (forall s, In (SScales s) cs -> Forall known s) ->
  exists a, history roots (time_model jac hess js hs) (time_config n dx dy scales) None g cs = Ok a.
Proof.
  intros roots jac hess js hs n dx dy scales g cs HS HO Hn known HK HT HC. pose proof PI_RGT_0 as HPI.
  apply (C51_accepts roots R (time_model jac hess js hs) (time_config n dx dy scales) None g cs trapezoidal HO eq_refl).
  - constructor; cbn [time_config cf_n cf_points cf_tname cf_tns cf_cyclic cf_noncyclic cf_con cf_bounds cf_bcs cf_scales cf_pen time_model m_states m_inputs].
    + exact Hn.
    + discriminate.
    + now apply time_model_ok.
    + discriminate.
    + discriminate.
    + discriminate.
    + discriminate.
    + intros b Hb. unfold setting_ok, known_var. cbn [time_bounds In] in Hb. repeat (destruct Hb as [<-|Hb]; [split; [cbn; tauto|]; split; [exact (fun _ => I)|cbn [of_bound k_v sbound bv le_bound]; lra]|]). contradiction.
    + intros b Hb. unfold setting_ok, known_var. cbn [time_bcs In] in Hb. repeat (destruct Hb as [<-|Hb]; [split; [cbn; tauto|]; split; [intros _; cbn [of_bc k_stage pin cstage trapezoidal t_stages Nat.sub]; rewrite Nat.mul_1_r; lia|cbn [of_bc k_v pin cv le_bound]; lra]|]). contradiction.
    + apply Forall_forall. exact HK.
  - apply Forall_forall. intros c Hc. rewrite Forall_forall in HT. specialize (HT c Hc). destruct c as [b|b|s|p|s|q]; try contradiction; [|exact I]. cbn [call_ok]. specialize (HC s Hc). rewrite Forall_forall in HC. exact HC.
Qed.
Print Assumptions C59_accepts.

(** ** Energy *)
Lemma piece : forall n pl, (1 <= n)%nat -> points_used n None pl -> forall i, (i < n)%nat -> nth (S i) pl 0 - nth i pl 0 = / INR n.
Proof. intros n pl Hn [_ H] i Hi. rewrite !H by lia. rewrite S_INR. assert (INR n <> 0) by (apply not_0_INR; lia). field. assumption. Qed.
(** With equal intervals the trapezoidal rule does not conserve the energy, but its error is known exactly at every point: it depends only on the slopes
    at the start and at that point and on the duration of one interval. *)
Theorem C59_energy : forall n pl g dx dy k, (1 <= n)%nat -> points_used n None pl -> slides n pl g dx dy k -> let h := s_T k / INR n in
  forall s, (s <= n)%nat -> s_v k s * s_v k s / 2 + g * s_y k s = g * g * (h * h) / 8 * (sin (s_th k 0%nat) * sin (s_th k 0%nat) - sin (s_th k s) * sin (s_th k s)).
Proof.
  intros n pl g dx dy k Hn HP [F1 F2 F3 _ _ (S1 & S2 & S3) _] h. induction s as [|s IH]; intros Hs.
  - rewrite S1, S3. field.
  - specialize (IH ltac:(lia)). specialize (F1 s ltac:(lia)). specialize (F3 s ltac:(lia)). cbn beta in F1, F3. rewrite (piece n pl Hn HP s ltac:(lia)) in F1, F3.
    replace (/ INR n * s_T k) with h in F1, F3 by (unfold h; field; apply not_0_INR; lia). clearbody h. clear F2 S1 S2 S3.
    set (a := sin (s_th k s)) in *. set (b := sin (s_th k (S s))) in *. set (v0 := s_v k s) in *. set (v1 := s_v k (S s)) in *. set (y0 := s_y k s) in *. set (y1 := s_y k (S s)) in *.
    assert (v1 = v0 + h * ((- g * a + - g * b) / 2)) as E1 by lra. assert (y1 = y0 + h * ((a * v0 + b * v1) / 2)) as E2 by lra. rewrite E2, E1.
    assert (v0 * v0 / 2 = g * g * (h * h) / 8 * (sin (s_th k 0%nat) * sin (s_th k 0%nat) - a * a) - g * y0) as E3 by lra.
    replace ((v0 + h * ((- g * a + - g * b) / 2)) * (v0 + h * ((- g * a + - g * b) / 2)) / 2) with (v0 * v0 / 2 + v0 * (h * ((- g * a + - g * b) / 2)) + (h * ((- g * a + - g * b) / 2)) * (h * ((- g * a + - g * b) / 2)) / 2) by field.
    rewrite E3. field.
Qed.
Print Assumptions C59_energy.
Lemma sin_sq : forall t, 0 <= sin t * sin t <= 1.
Proof. intros t. pose proof (sin2_cos2 t) as H. unfold Rsqr in H. pose proof (Rle_0_sqr (cos t)) as A. pose proof (Rle_0_sqr (sin t)) as B. unfold Rsqr in A, B. lra. Qed.
(** hence the bead never rises by more than g h^2 / 8 above its start, and its speed is that of a fall up to that error *)
Theorem C59_energy_bound : forall n pl g dx dy k, (1 <= n)%nat -> 0 < g -> points_used n None pl -> slides n pl g dx dy k -> let h := s_T k / INR n in
  forall s, (s <= n)%nat -> s_y k s <= g * (h * h) / 8 /\ Rabs (s_v k s * s_v k s / 2 + g * s_y k s) <= g * g * (h * h) / 8.
Proof.
  intros n pl g dx dy k Hn Hg HP HS h s Hs. pose proof (C59_energy n pl g dx dy k Hn HP HS s Hs) as E. fold h in E. pose proof (sin_sq (s_th k 0%nat)) as A. pose proof (sin_sq (s_th k s)) as B.
  set (a := sin (s_th k 0%nat) * sin (s_th k 0%nat)) in *. set (b := sin (s_th k s) * sin (s_th k s)) in *. assert (0 <= g * g * (h * h) / 8) as P. { pose proof (Rle_0_sqr (g * h)) as Q. unfold Rsqr in Q. lra. }
  pose proof (Rle_0_sqr (s_v k s)) as V. unfold Rsqr in V. set (c := g * g * (h * h) / 8) in *.
  assert (- c <= c * (a - b) <= c) as [L U] by (split; nra). split; [|apply Rabs_le; lra].
  apply (Rmult_le_reg_l g); [exact Hg|]. replace (g * (g * (h * h) / 8)) with c by (unfold c; field). lra.
Qed.
Print Assumptions C59_energy_bound.

(** ** Straight wires: exactly represented for every number of intervals *)
Lemma slope_of : forall L a b, 0 < L -> L * L = a * a + b * b -> 0 <= a -> sin (asin (b / L)) = b / L /\ cos (asin (b / L)) = a / L /\ - PI / 2 <= asin (b / L) <= PI / 2.
Proof.
  intros L a b HL E Ha. assert (-1 <= b / L <= 1) as HB.
  { assert (- L <= b <= L) as [B1 B2] by (split; nra). split; [apply (Rmult_le_reg_r L); [exact HL|]; unfold Rdiv; rewrite Rmult_assoc, Rinv_l by lra; lra|]. apply (Rmult_le_reg_r L); [exact HL|]. unfold Rdiv. rewrite Rmult_assoc, Rinv_l by lra. lra. }
  split; [now apply sin_asin|]. split.
  - rewrite cos_asin by exact HB. replace (1 - (b / L)²) with ((a / L) * (a / L)).
    + apply sqrt_square. apply Rmult_le_pos; [exact Ha|]. left. now apply Rinv_0_lt_compat.
    + unfold Rsqr. replace 1 with ((a * a + b * b) / (L * L)) by (rewrite <- E; field; lra). field. lra.
  - pose proof (asin_bound (b / L)). lra.
Qed.
Theorem C59_straight : forall n pl g dx dy T, (1 <= n)%nat -> 0 < g -> 0 <= dx -> dy < 0 -> nth 0 pl 0 = 0 -> nth n pl 0 = 1 -> T * T * (g * - dy) = 2 * (dx * dx + dy * dy) -> 1 / 100 <= T <= 10 ->
  exists k, slides n pl g dx dy k /\ s_T k = T /\ forall s, (s <= n)%nat -> dy * s_x k s = dx * s_y k s.
Proof.
  intros n pl g dx dy T Hn Hg Hx Hy P0 P1 HT HR. set (L := sqrt (dx * dx + dy * dy)).
  assert (L * L = dx * dx + dy * dy) as EL by (apply sqrt_sqrt; nra). assert (0 < L) as HL by (apply sqrt_lt_R0; nra).
  destruct (slope_of L dx dy HL EL Hx) as (ES & EC & EB). set (th := asin (dy / L)) in *. clearbody th. clearbody L.
  exists {| s_T := T; s_v := fun s => - g * (dy / L) * (nth s pl 0 * T); s_x := fun s => dx / L * (- g * (dy / L)) * ((nth s pl 0 * T) * (nth s pl 0 * T) / 2); s_y := fun s => dy / L * (- g * (dy / L)) * ((nth s pl 0 * T) * (nth s pl 0 * T) / 2); s_th := fun _ => th |}.
  split; [|split; [reflexivity|]].
  - constructor; unfold steps; cbn [s_T s_v s_x s_y s_th]; try rewrite ES; try rewrite EC.
    + intros i Hi. field. lra.
    + intros i Hi. field. lra.
    + intros i Hi. field. lra.
    + exact HR.
    + intros s _. exact EB.
    + rewrite P0. split; [|split]; field; lra.
    + rewrite P1. assert (forall a, a / L * (- g * (dy / L)) * (1 * T * (1 * T) / 2) = a) as Q.
      { intros a. replace (a / L * (- g * (dy / L)) * (1 * T * (1 * T) / 2)) with (a * (T * T * (g * - dy)) / (2 * (L * L))) by (field; lra). rewrite HT, <- EL. field. lra. }
      split; apply Q.
  - intros s _. cbn [s_x s_y]. field. lra.
Qed.
Print Assumptions C59_straight.

(** ** What the error of the energy allows *)
Lemma sin_half : sin (- PI / 2) = -1. Proof. replace (- PI / 2) with (- (PI / 2)) by lra. rewrite sin_neg, sin_PI2. lra. Qed.
Lemma cos_half : cos (- PI / 2) = 0. Proof. replace (- PI / 2) with (- (PI / 2)) by lra. rewrite cos_neg. apply cos_PI2. Qed.
(** No bead that starts at rest ever gets above its start, but for every number of intervals (at least two) the problem accepts one that does, by exactly the bound of C59_energy_bound. *)
Theorem C59_rise_refuted : forall n pl g T, (2 <= n)%nat -> 0 < g -> points_used n None pl -> 1 / 100 <= T <= 10 ->
  exists dx dy k, slides n pl g dx dy k /\ s_T k = T /\ 0 < dx /\ 0 < dy /\ dy = g * ((T / INR n) * (T / INR n)) / 8 /\ forall T' th v x y, ~ descends g dx dy T' th v x y.
Proof.
  intros n pl g T Hn Hg HP HT. set (h := T / INR n). assert (0 < INR n) as HN by (apply lt_0_INR; lia). assert (0 < h) as Hh by (apply Rdiv_lt_0_compat; lra). pose proof PI_RGT_0 as PP.
  set (x1 := h / 2 * (cos (PI / 6) * (g * h / 4))). assert (0 < cos (PI / 6)) as C6 by (apply cos_gt_0; lra).
  assert (0 < h * h) as HH by nra. assert (0 < x1) as HX. { unfold x1. apply Rmult_lt_0_compat; [lra|]. apply Rmult_lt_0_compat; [exact C6|]. pose proof (Rmult_lt_0_compat g h Hg Hh). lra. }
  set (k := {| s_T := T; s_v := fun s => match s with 1%nat => g * h / 4 | _ => 0 end; s_x := fun s => match s with O => 0 | 1%nat => x1 | _ => 2 * x1 end;
    s_y := fun s => match s with O => 0 | 1%nat => g * (h * h) / 16 | _ => g * (h * h) / 8 end; s_th := fun s => match s with O => - PI / 2 | 1%nat => PI / 6 | _ => 0 end |}).
  exists (2 * x1), (g * (h * h) / 8), k.
  assert (forall i, (i < n)%nat -> (nth (S i) pl 0 - nth i pl 0) * T = h) as PH. { intros i Hi. rewrite (piece n pl ltac:(lia) HP i Hi). unfold h. field. lra. }
  pose proof sin_half as S1. pose proof cos_half as C1. pose proof sin_PI6 as S6. pose proof sin_0 as S0. pose proof cos_0 as C0.
  split; [|split; [reflexivity|split; [lra|split; [|split; [reflexivity|]]]]].
  - constructor; unfold steps; cbn [k s_T s_v s_x s_y s_th].
    + intros [|[|i]] Hi; rewrite (PH _ Hi); rewrite ?S1, ?S6, ?S0; field.
    + intros [|[|i]] Hi; rewrite (PH _ Hi); rewrite ?C1, ?C0; unfold x1; field.
    + intros [|[|i]] Hi; rewrite (PH _ Hi); rewrite ?S1, ?S6, ?S0; field.
    + exact HT.
    + intros [|[|s]] _; lra.
    + repeat split; reflexivity.
    + destruct n as [|[|n]]; [lia|lia|]. split; reflexivity.
  - assert (0 < g * (h * h)) by (now apply Rmult_lt_0_compat). lra.
  - intros T' th v x y (D1 & D2 & D3 & D4 & D5 & D6 & D7). apply rides_motion in D2. destruct D2 as (br & MO). pose proof (energy g T' br th v x y MO D3 D5 T' ltac:(lra)) as E. rewrite D7 in E.
    pose proof (Rle_0_sqr (v T')) as V. unfold Rsqr in V. pose proof (Rmult_lt_0_compat g (g * (h * h) / 8) Hg ltac:(pose proof (Rmult_lt_0_compat g (h * h) Hg HH); lra)). lra.
Qed.
Print Assumptions C59_rise_refuted.
(** On a wire of one interval the problem accepts a ride that is faster than the brachistochrone, hence faster than every ride of the time model. *)
Theorem C59_faster_refuted : exists pl g dx dy th2 k, 0 < g /\ 0 < dx /\ dy < 0 /\ first_arch dx dy th2 /\ points_used 1 None pl /\ slides 1 pl g dx dy k /\
  (forall N, s_T k < snd (cycloid dx dy N g th2)) /\ forall T th v x y, descends g dx dy T th v x y -> s_T k < T.
Proof.
  set (p := 3 * (PI / 2)). pose proof PI2_3_2 as P1. pose proof PI_4 as P2. assert (9 / 2 < p <= 6) as HP by (unfold p; lra). set (L := sqrt ((p + 1) * (p + 1) + -1 * -1)).
  assert (L * L = (p + 1) * (p + 1) + -1 * -1) as EL by (apply sqrt_sqrt; nra). assert (0 < L) as HL by (apply sqrt_lt_R0; nra).
  destruct (slope_of L (p + 1) (-1) HL EL ltac:(lra)) as (ES & EC & EB). set (th := asin (-1 / L)) in *. clearbody th.
  assert (p + 1 < L) as LL by nra. assert (L <= 8) as LU by nra.
  set (g := 981 / 100). set (T := sqrt (4 * (L * L) / (g * (L + 1)))). assert (0 < 4 * (L * L) / (g * (L + 1))) as HQ by (apply Rdiv_lt_0_compat; unfold g; nra).
  assert (T * T = 4 * (L * L) / (g * (L + 1))) as ET by (apply sqrt_sqrt; lra). assert (0 < T) as HT by (now apply sqrt_lt_R0).
  assert (T * T * (g * (L + 1)) = 4 * (L * L)) as ET2 by (rewrite ET; field; unfold g; lra).
  assert (sin p = -1 /\ cos p = 0) as [SP CP]. { unfold p. rewrite sin_3PI2. split; [reflexivity|]. replace (3 * (PI / 2)) with (PI / 2 + PI) by lra. rewrite neg_cos, cos_PI2. lra. }
  assert (first_arch (p + 1) (-1) p) as FA. { split; [unfold p; lra|]. unfold cycloid_f. rewrite SP, CP. field. lra. }
  assert (forall N, T < snd (cycloid (p + 1) (-1) N g p)) as FT.
  { intros N. unfold cycloid. cbn [snd]. rewrite CP. replace (- -1 / (1 - 0) / g) with (/ g) by (unfold g; field). set (r := sqrt (/ g)). assert (r * r = / g) as ER by (apply sqrt_sqrt; unfold g; lra). assert (0 < r) as HR by (apply sqrt_lt_R0; unfold g; lra).
    apply Rsqr_incrst_0; [|lra|nra]. unfold Rsqr. rewrite ET. replace (p * r * (p * r)) with (p * p * / g) by (rewrite <- ER; ring).
    apply (Rmult_lt_reg_r (g * (L + 1))); [unfold g; lra|]. replace (4 * (L * L) / (g * (L + 1)) * (g * (L + 1))) with (4 * (L * L)) by (field; unfold g; lra). replace (p * p * / g * (g * (L + 1))) with (p * p * (L + 1)) by (unfold g; field).
    rewrite EL. apply Rlt_le_trans with (p * p * (p + 1 + 1)); [|apply Rmult_le_compat_l; nra]. assert (0 < p * (p * (p - 9 / 2) + 5 / 2 * (p - 9 / 2))) by nra. nra. }
  exists [0; 1], g, (p + 1), (-1), p, {| s_T := T; s_v := fun s => match s with O => 0 | _ => 2 * L / T end; s_x := fun s => match s with O => 0 | _ => p + 1 end; s_y := fun s => match s with O => 0 | _ => -1 end; s_th := fun s => match s with O => - PI / 2 | _ => th end |}.
  split; [unfold g; lra|]. split; [lra|]. split; [lra|]. split; [exact FA|]. split.
  { split; [reflexivity|]. intros [|[|i]] Hi; [cbn; lra|cbn; lra|lia]. }
  split; [|split; [exact FT|]].
  - constructor; unfold steps; cbn [s_T s_v s_x s_y s_th].
    + intros [|i] Hi; [|lia]. cbn [nth]. rewrite ES, sin_half. apply (Rmult_eq_reg_r (T * (2 * L))); [|nra]. replace ((2 * L / T - 0) * (T * (2 * L))) with (4 * (L * L)) by (field; lra). rewrite <- ET2. field. lra.
    + intros [|i] Hi; [|lia]. cbn [nth]. rewrite EC, cos_half. field. lra.
    + intros [|i] Hi; [|lia]. cbn [nth]. rewrite ES, sin_half. field. lra.
    + split; [apply Rsqr_incr_0|apply Rsqr_incr_0]; try lra; unfold Rsqr; rewrite ET; (apply (Rmult_le_reg_r (g * (L + 1))); [unfold g; lra|]); replace (4 * (L * L) / (g * (L + 1)) * (g * (L + 1))) with (4 * (L * L)) by (field; unfold g; lra); unfold g; nra.
    + intros [|s] _; lra.
    + repeat split; reflexivity.
    + split; reflexivity.
  - intros T' th' v x y D. cbn [s_T]. apply Rlt_le_trans with (snd (cycloid (p + 1) (-1) 2 g p)); [apply FT|]. apply (C59_fastest g (p + 1) (-1) 2 p ltac:(unfold g; lra) ltac:(lra) ltac:(lra) FA _ _ _ _ _ D).
Qed.
Print Assumptions C59_faster_refuted.

(** ** The forward of a batch with the backend "custom" never works: it is IndexError for every batch *)
Theorem C59_custom_batch_refuted : forall states inputs mesh, List.length inputs = List.length states -> List.length mesh = List.length states -> custom_batched_forward states inputs mesh = Raise IndexError.
Proof.
  intros states inputs mesh HI HM. unfold custom_batched_forward, NumpyModel.lmap. cbn [NumpyModel.full_axes bind NumpyModel.batch_size find]. destruct states as [|s states]; [reflexivity|].
  destruct inputs as [|u inputs]; [discriminate|]. destruct mesh as [|m mesh]; [discriminate|]. reflexivity.
Qed.
Print Assumptions C59_custom_batch_refuted.

(** ** The model in the distance domain *)
(** The rates per metre are the rates per second of the time model over the horizontal speed plus 1e-9, except for the height, whose rate is exact. *)
Theorem C59_distance : forall g t v x y th dv dx dy out, cos th <> 0 -> v * cos th + / 1000000000 <> 0 ->
  time_forward [("gravity", g)] [("v", v); ("x", x); ("y", y)] [("theta", th)] = Ok ([("v", dv); ("x", dx); ("y", dy)], out) ->
  exists rt rv ry, dist_forward [("gravity", g)] [("time", t); ("v", v); ("y", y)] [("theta", th)] = Ok ([("time", rt); ("v", rv); ("y", ry)], []) /\
    rt * (dx + / 1000000000) = 1 /\ rv * (dx + / 1000000000) = dv /\ ry * dx = dy.
Proof.
  intros g t v x y th dv dx dy out Hc Hd E. rewrite time_sem in E. assert (forall A (a b : A), Ok a = Ok b -> a = b) as OI by (intros A a b H; now injection H). apply OI in E.
  apply (f_equal fst) in E. cbn [fst] in E. injection E as <- <- <-. eexists. eexists. eexists. split; [reflexivity|]. split; [|split].
  - field. lra.
  - field. lra.
  - unfold tan. field. exact Hc.
Qed.
Print Assumptions C59_distance.
(** ... so the energy is not conserved along a ride of the distance model; its rate of change per metre *)
Theorem C59_distance_energy : forall g s (v y time th : R -> R), cos (th s) <> 0 -> v s * cos (th s) + / 1000000000 <> 0 ->
  (exists rt rv ry, dist_forward [("gravity", g)] [("time", time s); ("v", v s); ("y", y s)] [("theta", th s)] = Ok ([("time", rt); ("v", rv); ("y", ry)], []) /\
    derivable_pt_lim time s rt /\ derivable_pt_lim v s rv /\ derivable_pt_lim y s ry) ->
  derivable_pt_lim (fun t => v t * v t / 2 + g * y t) s (g * sin (th s) * / 1000000000 / (cos (th s) * (v s * cos (th s) + / 1000000000))).
Proof.
  intros g s v y time th Hc Hd (rt & rv & ry & E & _ & Dv & Dy).
  destruct (C59_distance g (time s) (v s) 0 (y s) (th s) _ _ _ _ Hc Hd (time_sem g (v s) 0 (y s) (th s))) as (rt' & rv' & ry' & E' & _ & E2 & E3).
  rewrite E' in E. assert (forall A (a b : A), Ok a = Ok b -> a = b) as OI by (intros A a b H; now injection H). apply OI in E. apply (f_equal fst) in E. cbn [fst] in E. injection E as -> -> ->.
  assert (ry = sin (th s) / cos (th s)) as Ey.
  { assert (forall A (a b : A), Ok a = Ok b -> a = b) as OI2 by (intros A a b H; now injection H). unfold dist_forward in E'. cbn [lookup_err dget String.eqb Ascii.eqb Bool.eqb bind make_dict] in E'. apply OI in E'. apply (f_equal fst) in E'. cbn [fst] in E'. injection E' as _ _ <-. reflexivity. }
  assert (rv = - g * sin (th s) / (v s * cos (th s) + / 1000000000)) as Ev. { apply (Rmult_eq_reg_r (v s * cos (th s) + / 1000000000)); [|exact Hd]. rewrite (Rmult_comm (v s)). rewrite E2. field. rewrite (Rmult_comm (cos _)). lra. }
  eapply lim_eq; [|apply (lim_plus (fun t => v t * v t / 2) (fun t => g * y t)); [apply (lim_mult (fun t => v t * v t) (fun _ => / 2)); [apply (lim_mult v v); [exact Dv|exact Dv]|apply (derivable_pt_lim_const (/ 2))]|apply (lim_mult (fun _ => g) y); [apply (derivable_pt_lim_const g)|exact Dy]]].
  cbn beta. rewrite Ey, Ev. field. split; [|exact Hc]. intro Q. apply Hd. lra.
Qed.
Print Assumptions C59_distance_energy.

(** the problem of the example, with its hand-written derivatives: it is accepted, and a slide exists *)
Example C59_solve_nonvacuous : forall roots, oracle_ok roots None -> (exists a, history roots custom_model (time_config 49 1 (-65 / 100) []) None (981 / 100) [] = Ok a) /\
  exists pl k, points_used 49 None pl /\ slides 49 pl (981 / 100) 1 (-65 / 100) k.
Proof.
  intros roots HO. split.
  - unfold custom_model. apply C59_accepts; try (constructor; fail); [|exact HO|lia|intros s []]. split; [|split; [|split]].
    + intros w m p H. destruct (seven w H) as (v & x & y & th & a & b & c & ->). reflexivity.
    + intros w l m p H Hl. destruct (seven w H) as (v & x & y & th & a & b & c & ->). destruct (three l Hl) as (m0 & m1 & m2 & ->). reflexivity.
    + repeat split; cbn; repeat constructor.
    + repeat split; cbn; repeat constructor.
  - set (pl := map (fun i => INR i / INR 49) (seq 0 50)). assert (forall i, (i <= 49)%nat -> nth i pl 0 = INR i / INR 49) as HN. { intros i Hi. unfold pl. rewrite (nth_map_in _ _ _ _ _ _ 0%nat) by (rewrite seq_length; lia). rewrite seq_nth by lia. reflexivity. }
    assert (INR 49 <> 0) as H49 by (apply not_0_INR; lia).
    set (q := 2 * (1 * 1 + -65 / 100 * (-65 / 100)) / (981 / 100 * - (-65 / 100))). assert (q = 28450 / 63765) as EQ by (unfold q; field). assert (1 / 10 <= q <= 1) as HQ by lra.
    assert (sqrt q * sqrt q = q) as ES by (apply sqrt_sqrt; lra). assert (0 < sqrt q) as HS by (apply sqrt_lt_R0; lra).
    destruct (C59_straight 49 pl (981 / 100) 1 (-65 / 100) (sqrt q) ltac:(lia) ltac:(lra) ltac:(lra) ltac:(lra)) as (k & HK & _).
    + rewrite HN by lia. cbn [INR]. unfold Rdiv. apply Rmult_0_l.
    + rewrite HN by lia. now field.
    + rewrite ES. unfold q. field.
    + split; nra.
    + exists pl, k. split; [|exact HK]. split; [unfold pl; now rewrite map_length, seq_length|exact HN].
Qed.
