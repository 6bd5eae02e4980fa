(** C44: the curvilinear kinematics are the kinematics of a car in the plane, and the vehicle on a track obeys the vehicle's equations of motion. *)
From Verif Require Import Base RBase IoModel AlgModel KinModel KinSpec.

Lemma lookup_ok : forall V k (d : dict V) v, dget k d = Some v -> lookup_err k d = Ok v.
Proof. intros V k d v H. unfold lookup_err. now rewrite H. Qed.
Lemma lookup_inv : forall V k (d : dict V) v, lookup_err k d = Ok v -> dget k d = Some v.
Proof. intros V k d v H. unfold lookup_err in H. destruct (dget k d); [now injection H as ->|discriminate]. Qed.

Lemma kin_eq : forall st inp n eta vx vy w ka he, dget "n" st = Some n -> dget "eta" st = Some eta ->
  dget "vx" inp = Some vx -> dget "vy" inp = Some vy -> dget "yaw_rate" inp = Some w -> dget "track_curvature" inp = Some ka -> dget "track_heading" inp = Some he ->
  kin_forward st inp = let v := (vx * cos eta - vy * sin eta) / (1 - n * ka) in
    Ok ([("time", 1 / v); ("n", (vx * sin eta + vy * cos eta) / v); ("eta", (w - ka * v) / v)], [("yaw_angle", eta + he); ("curvature", ka)]).
Proof.
  intros. unfold kin_forward. rewrite (lookup_ok _ "n" st n) by assumption. cbn [bind]. rewrite (lookup_ok _ "eta" st eta) by assumption. cbn [bind].
  rewrite (lookup_ok _ "vx" inp vx) by assumption. cbn [bind]. rewrite (lookup_ok _ "vy" inp vy) by assumption. cbn [bind]. rewrite (lookup_ok _ "yaw_rate" inp w) by assumption. cbn [bind].
  rewrite (lookup_ok _ "track_curvature" inp ka) by assumption. cbn [bind]. rewrite (lookup_ok _ "track_heading" inp he) by assumption. reflexivity.
Qed.

(** A car whose n and eta follow the model along a track moves in the plane with the body velocities (vx, vy) turned by the reported yaw angle, turns with
    yaw_rate, and [time] is the time: everything per distance is dt/ds times the rate per time.  [dt] is the derivative of time reported by the model. *)
Theorem C44_distance_domain : forall cx cy heading curvature n eta s vx vy w st inp sd out dn de,
  track_at cx cy heading curvature s -> dget "n" st = Some (n s) -> dget "eta" st = Some (eta s) ->
  dget "vx" inp = Some vx -> dget "vy" inp = Some vy -> dget "yaw_rate" inp = Some w -> dget "track_curvature" inp = Some (curvature s) -> dget "track_heading" inp = Some (heading s) ->
  1 - n s * curvature s <> 0 -> vx * cos (eta s) - vy * sin (eta s) <> 0 ->
  kin_forward st inp = Ok (sd, out) -> dget "n" sd = Some dn -> dget "eta" sd = Some de -> derivable_pt_lim n s dn -> derivable_pt_lim eta s de ->
  exists dt yaw, dget "time" sd = Some dt /\ dt <> 0 /\ dget "yaw_angle" out = Some yaw /\ yaw = heading s + eta s /\
    derivable_pt_lim (left_of_x cx heading n) s (dt * world_x yaw vx vy) /\ derivable_pt_lim (left_of_y cy heading n) s (dt * world_y yaw vx vy) /\
    derivable_pt_lim (fun s => heading s + eta s) s (dt * w).
Proof.
  intros cx cy heading curvature n eta s vx vy w st inp sd out dn de (Tx & Ty & Th) Hn He Hvx Hvy Hw Hk Hh D1 D2 Hf Sn Se Dn De.
  rewrite (kin_eq st inp _ _ _ _ _ _ _ Hn He Hvx Hvy Hw Hk Hh) in Hf. cbv zeta in Hf. injection Hf as <- <-. cbn in Sn, Se. injection Sn as <-. injection Se as <-.
  set (q := vx * cos (eta s) - vy * sin (eta s)) in *. set (D := 1 - n s * curvature s) in *.
  assert (q / D <> 0) as Hq. { unfold Rdiv. apply Rmult_integral_contrapositive_currified; [assumption|now apply Rinv_neq_0_compat]. }
  exists (1 / (q / D)), (eta s + heading s). split; [reflexivity|]. split; [unfold Rdiv; rewrite Rmult_1_l; now apply Rinv_neq_0_compat|]. split; [reflexivity|]. split; [ring|].
  assert (derivable_pt_lim (fun u => sin (heading u)) s (cos (heading s) * curvature s)) as Ds by (apply (derivable_pt_lim_comp heading sin); [exact Th|apply derivable_pt_lim_sin]).
  assert (derivable_pt_lim (fun u => cos (heading u)) s (- sin (heading s) * curvature s)) as Dc by (apply (derivable_pt_lim_comp heading cos); [exact Th|apply derivable_pt_lim_cos]).
  unfold world_x, world_y. rewrite cos_plus, sin_plus. split; [|split].
  - unfold left_of_x. eapply dlim_eq; [|apply (dlim_plus cx (fun u => - (n u * sin (heading u)))); [exact Tx|]].
    2:{ apply dlim_ext with (f := fun u => -1 * (n u * sin (heading u))); [intro; ring|]. apply dlim_scal. apply (dlim_mult n (fun u => sin (heading u))); [exact Dn|exact Ds]. }
    cbv beta. replace (vx * (cos (eta s) * cos (heading s) - sin (eta s) * sin (heading s)) - vy * (sin (eta s) * cos (heading s) + cos (eta s) * sin (heading s)))
      with (q * cos (heading s) - (vx * sin (eta s) + vy * cos (eta s)) * sin (heading s)) by (unfold q; ring).
    transitivity (D * cos (heading s) - (vx * sin (eta s) + vy * cos (eta s)) / (q / D) * sin (heading s)); [unfold D; ring|]. field. split; assumption.
  - unfold left_of_y. eapply dlim_eq; [|apply (dlim_plus cy (fun u => n u * cos (heading u))); [exact Ty|apply (dlim_mult n (fun u => cos (heading u))); [exact Dn|exact Dc]]].
    cbv beta. replace (vx * (sin (eta s) * cos (heading s) + cos (eta s) * sin (heading s)) + vy * (cos (eta s) * cos (heading s) - sin (eta s) * sin (heading s)))
      with (q * sin (heading s) + (vx * sin (eta s) + vy * cos (eta s)) * cos (heading s)) by (unfold q; ring).
    transitivity (D * sin (heading s) + (vx * sin (eta s) + vy * cos (eta s)) / (q / D) * cos (heading s)); [unfold D; ring|]. field. split; assumption.
  - eapply dlim_eq; [|apply (dlim_plus heading eta); [exact Th|exact De]]. field. split; assumption.
Qed.
Print Assumptions C44_distance_domain.

(** The same as a function of time: let [sigma] be the distance as a function of time, with the speed ds/dt that belongs to the model's dt/ds.  Then the
    velocity in the plane is (vx, vy) turned by the yaw angle, and the yaw angle changes with yaw_rate. *)
Theorem C44_time_domain : forall cx cy heading curvature n eta sigma t s vx vy w st inp sd out dn de dt v,
  track_at cx cy heading curvature s -> dget "n" st = Some (n s) -> dget "eta" st = Some (eta s) ->
  dget "vx" inp = Some vx -> dget "vy" inp = Some vy -> dget "yaw_rate" inp = Some w -> dget "track_curvature" inp = Some (curvature s) -> dget "track_heading" inp = Some (heading s) ->
  1 - n s * curvature s <> 0 -> vx * cos (eta s) - vy * sin (eta s) <> 0 ->
  kin_forward st inp = Ok (sd, out) -> dget "n" sd = Some dn -> dget "eta" sd = Some de -> derivable_pt_lim n s dn -> derivable_pt_lim eta s de ->
  dget "time" sd = Some dt -> sigma t = s -> derivable_pt_lim sigma t v -> v * dt = 1 ->
  derivable_pt_lim (fun t => left_of_x cx heading n (sigma t)) t (world_x (heading s + eta s) vx vy) /\
  derivable_pt_lim (fun t => left_of_y cy heading n (sigma t)) t (world_y (heading s + eta s) vx vy) /\
  derivable_pt_lim (fun t => heading (sigma t) + eta (sigma t)) t w.
Proof.
  intros cx cy heading curvature n eta sigma t s vx vy w st inp sd out dn de dt v T Hn He Hvx Hvy Hw Hk Hh D1 D2 Hf Sn Se Dn De Ht Es Dv E.
  destruct (C44_distance_domain cx cy heading curvature n eta s vx vy w st inp sd out dn de) as (dt' & yaw & Ht' & Hne & Hy & Ey & Px & Py & Pw); try assumption.
  rewrite Ht in Ht'. injection Ht' as <-. subst yaw. rewrite <- Es in Px, Py, Pw. split; [|split].
  - eapply dlim_eq; [|apply (derivable_pt_lim_comp sigma (left_of_x cx heading n)); [exact Dv|exact Px]]. rewrite Es. replace (dt * world_x (heading s + eta s) vx vy * v) with (v * dt * world_x (heading s + eta s) vx vy) by ring. rewrite E. ring.
  - eapply dlim_eq; [|apply (derivable_pt_lim_comp sigma (left_of_y cy heading n)); [exact Dv|exact Py]]. rewrite Es. replace (dt * world_y (heading s + eta s) vx vy * v) with (v * dt * world_y (heading s + eta s) vx vy) by ring. rewrite E. ring.
  - eapply dlim_eq; [|apply (derivable_pt_lim_comp sigma (fun s => heading s + eta s)); [exact Dv|exact Pw]]. replace (dt * w * v) with (v * dt * w) by ring. rewrite E. ring.
Qed.
Print Assumptions C44_time_domain.

(** time grows with distance when the car moves forward along the track and stays on the near side of the centre of curvature *)
Theorem C44_time_increases : forall st inp n eta vx vy w ka he sd out, dget "n" st = Some n -> dget "eta" st = Some eta ->
  dget "vx" inp = Some vx -> dget "vy" inp = Some vy -> dget "yaw_rate" inp = Some w -> dget "track_curvature" inp = Some ka -> dget "track_heading" inp = Some he ->
  n * ka < 1 -> vx * cos eta - vy * sin eta > 0 -> kin_forward st inp = Ok (sd, out) -> exists dt, dget "time" sd = Some dt /\ 0 < dt /\ dt * (vx * cos eta - vy * sin eta) = 1 - n * ka.
Proof.
  intros st inp n eta vx vy w ka he sd out H1 H2 H3 H4 H5 H6 H7 Hn Hv Hf. rewrite (kin_eq st inp _ _ _ _ _ _ _ H1 H2 H3 H4 H5 H6 H7) in Hf. cbv zeta in Hf. injection Hf as <- <-.
  eexists. split; [reflexivity|]. split; [|field; split; lra]. unfold Rdiv at 1. rewrite Rmult_1_l. apply Rinv_0_lt_compat. apply Rdiv_lt_0_compat; lra.
Qed.
Print Assumptions C44_time_increases.

(** ** the vehicle on a track *)
Lemma mapM_pairs : forall (d : dict R) names r, mapM (fun k => fmap (pair k) (lookup_err k d)) names = Ok r -> map fst r = names /\ forall k, In k names -> dget k (dict_of_list r) = dget k d.
Proof.
  intros d names r H.
  assert (map fst r = names /\ Forall (fun kv => dget (fst kv) d = Some (snd kv)) r) as [E F].
  { revert r H. induction names as [|k names IH]; intros r H; cbn [mapM] in H; [injection H as <-; split; [reflexivity|constructor]|].
    destruct (lookup_err k d) as [v|] eqn:Ek; [|discriminate]. cbn [fmap bind] in H. destruct (mapM _ names) as [r'|] eqn:Er; [|discriminate]. cbn [bind] in H. injection H as <-.
    destruct (IH _ eq_refl) as [E F]. split; [cbn; now rewrite E|]. constructor; [now apply lookup_inv|assumption]. }
  split; [exact E|]. intros k Hk. rewrite <- E in Hk.
  assert (forall l a, Forall (fun kv => dget (fst kv) d = Some (snd kv)) l -> (In k (map fst l) \/ dget k a = dget k d) -> dget k (fold_left (fun a kv => dset (fst kv) (snd kv) a) l a) = dget k d) as K.
  { induction l as [|[k' v] l IH]; intros a Fl Hc; cbn [fold_left]; [destruct Hc as [[]|Hc]; exact Hc|]. inversion Fl; subst. apply IH; [assumption|]. cbn [fst snd] in *.
    destruct (string_dec k' k) as [->|Ne]; [right; rewrite dget_dset_same; now symmetry|]. destruct Hc as [[Hc|Hc]|Hc]; [contradiction|now left|right; now rewrite dget_dset_other]. }
  apply (K r []); [assumption|now left].
Qed.
Lemma pick_get : forall names d r, pick names d = Ok r -> forall k, In k names -> dget k r = dget k d.
Proof. intros names d r H k Hk. unfold pick in H. destruct (mapM _ names) as [l|] eqn:E; [|discriminate]. injection H as <-. now apply mapM_pairs with (names := names). Qed.
Lemma pick_some : forall names d, (forall k, In k names -> exists v, dget k d = Some v) -> exists r, pick names d = Ok r.
Proof.
  intros names d H. unfold pick. assert (exists l, mapM (fun k => fmap (pair k) (lookup_err k d)) names = Ok l) as [l ->]; [|now eexists].
  induction names as [|k names IH]; [now eexists|]. destruct (H k (or_introl eq_refl)) as [v Hv]. destruct IH as [l El]; [intros; apply H; now right|]. cbn [mapM]. rewrite (lookup_ok _ _ _ _ Hv), El. now eexists.
Qed.
Lemma dget_app : forall V k (a b : dict V), dget k (a ++ b) = match dget k a with Some v => Some v | None => dget k b end.
Proof. intros V k a b. induction a as [|[k' v] a IH]; [reflexivity|]. cbn [app dget]. destruct (String.eqb k k'); [reflexivity|exact IH]. Qed.
Lemma dget_dupdate_nodup : forall V k (b a : dict V), NoDup (keys b) -> dget k (dupdate a b) = match dget k b with Some v => Some v | None => dget k a end.
Proof.
  intros V k b. unfold dupdate. induction b as [|[k' v] b IH]; intros a Hn; [reflexivity|]. cbn [fold_left dget fst snd]. cbn in Hn. inversion Hn; subst. rewrite IH by assumption.
  destruct (String.eqb_spec k k') as [->|Ne].
  - assert (dget k' b = None) as -> by (now apply dget_none). apply dget_dset_same.
  - destruct (dget k b); [reflexivity|]. apply dget_dset_other. congruence.
Qed.
Lemma dget_scaled : forall k c (d : dict R), dget k (map (fun kv => (fst kv, snd kv * c)) d) = match dget k d with Some v => Some (v * c) | None => None end.
Proof. intros k c d. induction d as [|[k' v] d IH]; [reflexivity|]. cbn [map dget fst snd]. destruct (String.eqb k k'); [reflexivity|exact IH]. Qed.

(** The derivative with respect to distance of every vehicle state is the vehicle's own time derivative times dt/ds, where dt/ds is the reported derivative
    of time; and (time, n, eta) are those of the kinematics with the vehicle's speeds and the given track. *)
Theorem C44_on_track : forall vs vi vf states inputs,
  NoDup vs -> In "vx" vs -> In "vy" vs -> In "yaw_rate" vs -> ~ In "time" vs -> ~ In "n" vs -> ~ In "eta" vs ->
  (forall k, In k (ot_states vs) -> exists v, dget k states = Some v) -> (forall k, In k (ot_inputs vi) -> exists v, dget k inputs = Some v) ->
  (forall a b, exists d, vf a b = Ok d /\ keys d = vs) ->
  exists vst vin vd kin kinp kd ko dt r, ot_forward vs vi vf states inputs = Ok r /\
    (forall k, In k vs -> dget k vst = dget k states) /\ (forall k, In k vi -> dget k vin = dget k inputs) /\ vf vst vin = Ok vd /\
    (forall k, In k kin_states -> dget k kin = dget k states) /\ (forall k, In k ["vx"; "vy"; "yaw_rate"] -> dget k kinp = dget k states) /\
    (forall k, In k ["track_curvature"; "track_heading"] -> dget k kinp = dget k inputs) /\ kin_forward kin kinp = Ok (kd, ko) /\
    dget "time" kd = Some dt /\ (forall k, In k kin_states -> dget k r = dget k kd) /\
    (forall k v, In k vs -> dget k vd = Some v -> dget k r = Some (v * dt)).
Proof.
  intros vs vi vf states inputs Hnd Vx Vy Vw Nt Nn Ne Hs Hi Hf.
  destruct (pick_some vi inputs) as [vin Pi]; [intros k Hk; apply Hi; unfold ot_inputs; apply in_or_app; now left|].
  destruct (pick_some vs states) as [vst Ps]; [intros k Hk; apply Hs; unfold ot_states; apply in_or_app; now right|].
  destruct (Hf vst vin) as (vd & Ev & Kv).
  destruct (pick_some kin_states states) as [kin Pk]; [intros k Hk; apply Hs; unfold ot_states; apply in_or_app; now left|].
  pose proof (pick_get _ _ _ Ps) as Gs. pose proof (pick_get _ _ _ Pi) as Gi. pose proof (pick_get _ _ _ Pk) as Gk.
  assert (forall k, In k ["vx"; "vy"; "yaw_rate"] -> In k vs) as Sub by (intros k [<-|[<-|[<-|[]]]]; assumption).
  destruct (pick_some ["vx"; "vy"; "yaw_rate"] vst) as [fv Pv]; [intros k Hk; rewrite Gs by auto; apply Hs; unfold ot_states; apply in_or_app; right; auto|].
  destruct (pick_some ["track_curvature"; "track_heading"] inputs) as [ti Pt]; [intros k Hk; apply Hi; unfold ot_inputs; apply in_or_app; now right|].
  pose proof (pick_get _ _ _ Pv) as Gv. pose proof (pick_get _ _ _ Pt) as Gt.
  assert (forall k, In k ["vx"; "vy"; "yaw_rate"] -> dget k (ti ++ fv) = dget k states) as K1.
  { intros k Hk. rewrite dget_app. assert (dget k ti = None) as ->; [|rewrite Gv by assumption; apply Gs; auto].
    unfold pick in Pt. destruct (mapM _ ["track_curvature"; "track_heading"]) as [l|] eqn:El; [|discriminate]. injection Pt as <-. destruct (mapM_pairs _ _ _ El) as [E _].
    destruct l as [|[k1 v1] [|[k2 v2] [|? ?]]]; try discriminate E. injection E as -> ->. destruct Hk as [<-|[<-|[<-|[]]]]; reflexivity. }
  assert (forall k, In k ["track_curvature"; "track_heading"] -> dget k (ti ++ fv) = dget k inputs) as K2.
  { intros k Hk. rewrite dget_app, Gt by assumption. destruct (Hi k) as [v ->]; [unfold ot_inputs; apply in_or_app; now right|reflexivity]. }
  assert (forall k, In k kin_states -> exists v, dget k kin = Some v) as KS by (intros k Hk; rewrite Gk by assumption; apply Hs; unfold ot_states; apply in_or_app; now left).
  assert (forall k, In k ["vx"; "vy"; "yaw_rate"] -> exists v, dget k (ti ++ fv) = Some v) as KV by (intros k Hk; rewrite K1 by assumption; apply Hs; unfold ot_states; apply in_or_app; right; auto).
  assert (forall k, In k ["track_curvature"; "track_heading"] -> exists v, dget k (ti ++ fv) = Some v) as KT by (intros k Hk; rewrite K2 by assumption; apply Hi; unfold ot_inputs; apply in_or_app; now right).
  destruct (KS "n") as [vn Hn]; [cbn; auto|]. destruct (KS "eta") as [ve He]; [cbn; auto|]. destruct (KV "vx") as [x1 H1]; [cbn; auto|]. destruct (KV "vy") as [x2 H2]; [cbn; auto|]. destruct (KV "yaw_rate") as [x3 H3]; [cbn; auto|].
  destruct (KT "track_curvature") as [x4 H4]; [cbn; auto|]. destruct (KT "track_heading") as [x5 H5]; [cbn; auto|].
  pose proof (kin_eq kin (ti ++ fv) _ _ _ _ _ _ _ Hn He H1 H2 H3 H4 H5) as EK. cbv zeta in EK. destruct (kin_forward kin (ti ++ fv)) as [[kd ko]|] eqn:EKf; [|discriminate]. injection EK as -> ->.
  match type of EKf with kin_forward _ _ = Ok (?kd, ?ko) => set (KD := kd) in *; set (KO := ko) in * end.
  exists vst, vin, vd, kin, (ti ++ fv), KD, KO. eexists. eexists. split.
  { unfold ot_forward. rewrite Pi. cbn [bind]. rewrite Ps. cbn [bind]. rewrite Ev. cbn [bind]. rewrite Pk. cbn [bind]. rewrite Pv. cbn [bind]. rewrite Pt. cbn [bind]. rewrite EKf. cbn [bind fst]. reflexivity. }
  split; [exact Gs|]. split; [exact Gi|]. split; [exact Ev|]. split; [exact Gk|]. split; [exact K1|]. split; [exact K2|]. split; [exact EKf|]. split; [reflexivity|].
  assert (NoDup (keys (map (fun kv => (fst kv, snd kv * (1 / ((x1 * cos ve - x2 * sin ve) / (1 - vn * x4))))) vd))) as ND.
  { unfold keys. rewrite map_map. cbn [fst]. change (NoDup (keys vd)). now rewrite Kv. }
  split.
  - intros k Hk. rewrite dget_dupdate_nodup by exact ND. rewrite dget_scaled. assert (dget k vd = None) as ->; [|reflexivity]. apply dget_none. rewrite Kv. destruct Hk as [<-|[<-|[<-|[]]]]; assumption.
  - intros k v Hk Hv. rewrite dget_dupdate_nodup by exact ND. now rewrite dget_scaled, Hv.
Qed.
Print Assumptions C44_on_track.

(** in time: a vehicle state that follows the combined model along the distance obeys the vehicle's own differential equation *)
Theorem C44_vehicle_in_time : forall (x sigma : R -> R) t xdot dt v, derivable_pt_lim x (sigma t) (xdot * dt) -> derivable_pt_lim sigma t v -> v * dt = 1 ->
  derivable_pt_lim (fun t => x (sigma t)) t xdot.
Proof.
  intros x sigma t xdot dt v Dx Dv E. eapply dlim_eq; [|apply (derivable_pt_lim_comp sigma x); [exact Dv|exact Dx]]. replace (xdot * dt * v) with (v * dt * xdot) by ring. rewrite E. ring.
Qed.
Print Assumptions C44_vehicle_in_time.

(** ** a circle of radius 100, the car 2 m inside, 49 m/s: half a second of yaw *)
Definition c_heading (s : R) : R := s / 100.
Example C44_nonvacuous : track_at (fun s => 100 * sin (s / 100)) (fun s => - 100 * cos (s / 100)) c_heading (fun _ => 1 / 100) 30 /\
  exists sd out, kin_forward [("time", 7); ("n", 2); ("eta", 0)] [("vx", 49); ("vy", 0); ("yaw_rate", 1 / 2); ("track_curvature", 1 / 100); ("track_heading", c_heading 30)] = Ok (sd, out) /\
    dget "time" sd = Some (1 / 50) /\ dget "n" sd = Some 0 /\ dget "eta" sd = Some 0 /\ 1 - 2 * (1 / 100) <> 0 /\ 49 * cos 0 - 0 * sin 0 <> 0.
Proof.
  split.
  - assert (derivable_pt_lim (fun s => s / 100) 30 (1 / 100)) as D by (apply dlim_ext with (f := fun s => 1 / 100 * s + 0); [intro; lra|apply dlim_lin]).
    split; [|split]; unfold c_heading.
    + eapply dlim_eq; [|apply dlim_scal; apply (derivable_pt_lim_comp (fun s => s / 100) sin); [exact D|apply derivable_pt_lim_sin]]. lra.
    + eapply dlim_eq; [|apply dlim_scal; apply (derivable_pt_lim_comp (fun s => s / 100) cos); [exact D|apply derivable_pt_lim_cos]]. lra.
    + exact D.
  - do 2 eexists. split; [reflexivity|]. cbn [dget String.eqb Ascii.eqb Bool.eqb]. rewrite cos_0, sin_0. repeat split; try lra; f_equal; lra.
Qed.
Example C44_on_track_nonvacuous : exists r, ot_forward ["vx"; "vy"; "yaw_rate"] ["throttle"] (fun _ _ => Ok [("vx", 3); ("vy", 0); ("yaw_rate", 1)])
    [("time", 0); ("n", 0); ("eta", 0); ("vx", 10); ("vy", 0); ("yaw_rate", 0)] [("throttle", 1); ("track_curvature", 0); ("track_heading", 0)] = Ok r /\ dget "vx" r = Some (3 * (1 / ((10 * cos 0 - 0 * sin 0) / (1 - 0 * 0)))).
Proof. eexists. split; reflexivity. Qed.
(** Derivatives and outputs come in the declared order, which is the order of the vectors built from them. *)
Theorem C44_order : forall st inp n eta vx vy w ka he, dget "n" st = Some n -> dget "eta" st = Some eta -> dget "vx" inp = Some vx -> dget "vy" inp = Some vy -> dget "yaw_rate" inp = Some w ->
  dget "track_curvature" inp = Some ka -> dget "track_heading" inp = Some he -> exists sd out, kin_forward st inp = Ok (sd, out) /\ keys sd = ["time"; "n"; "eta"] /\ out = [("yaw_angle", eta + he); ("curvature", ka)].
Proof.
  intros st inp n eta vx vy w ka he H1 H2 H3 H4 H5 H6 H7. unfold kin_forward. rewrite (lookup_ok _ _ _ _ H1), (lookup_ok _ _ _ _ H2), (lookup_ok _ _ _ _ H3), (lookup_ok _ _ _ _ H4), (lookup_ok _ _ _ _ H5), (lookup_ok _ _ _ _ H6), (lookup_ok _ _ _ _ H7). do 2 eexists. split; [reflexivity|]. split; reflexivity.
Qed.
Print Assumptions C44_order.

(** seen through the array interface of the base class (forward_with_arrays): which entry of the arrays is which variable *)
Definition kin_names (g : string) : list string :=
  if String.eqb g "states" || String.eqb g "states_dot" then kin_states else if String.eqb g "inputs" then kin_inputs else if String.eqb g "outputs" then kin_outputs else [].
Theorem C44_arrays : forall t n eta vx vy w ka he mesh, let ds_dt := (vx * cos eta - vy * sin eta) / (1 - n * ka) in
  forward_with_arrays kin_names (fun s i _ => kin_forward s i) [t; n; eta] [vx; vy; w; ka; he] mesh =
    Ok ([1 / ds_dt; (vx * sin eta + vy * cos eta) / ds_dt; (w - ka * ds_dt) / ds_dt], [eta + he; ka], [], []).
Proof. intros. reflexivity. Qed.
Print Assumptions C44_arrays.
