(** Lemmas for C54: the trajectories of the laptime simulation of the vehicle are the laps. *)
From Verif Require Import Base RBase TreeModel UtilsModel UtilsProofs IoModel IoProofs CollocModel CollocProofs CollocProps MeshModel MeshProps OcpModel OcpSpec OcpProofs OcpProps NlpModel AlgModel AlgSpec ConvModel ConvSpec CyclicSpec BoundModel BoundSpec BoundProofs ScaleModel ScaleSpec
  BuildModel BuildSpec BuildProofs BuildProofs4 BuildProofs5 BuildProofs6 VehModel VehSpec VehProps KinModel TrackModel TrackSpec LapModel LapSpec LapProofs LapProps2 FlightProofs RaceModel RaceProofs RaceSpec RaceProofs2 RaceProofs3 RaceProofs4.

Lemma choose : forall A (d : A) (Q : nat -> A -> Prop) n, (forall s, (s <= n)%nat -> exists a, Q s a) -> exists k, forall s, (s <= n)%nat -> Q s (k s).
Proof.
  intros A d Q n. induction n as [|n IH]; intro H.
  - destruct (H 0%nat (le_n _)) as (a & Ha). exists (fun _ => a). intros s Hs. assert (s = 0)%nat as -> by lia. exact Ha.
  - destruct IH as (k & Hk); [intros s Hs; apply H; lia|]. destruct (H (S n) (le_n _)) as (a & Ha). exists (fun s => if Nat.eqb s (S n) then a else k s). intros s Hs. destruct (Nat.eqb_spec s (S n)) as [->|N]; [exact Ha|apply Hk; lia].
Qed.

(** ** the bounds *)
Definition of_track (c : setting) : Prop := In (k_g c, k_n c) [("inputs", "track_curvature"); ("inputs", "track_heading"); ("states", "n")].
Lemma tuning_track : forall P read_csv t n pts (cs : list (lcall P)) l, lap_bounds read_csv t n pts cs l -> Forall tuning cs -> Forall of_track l.
Proof.
  intros P read_csv t n pts cs l H. induction H as [|bs cs l H IH|name f bs cs l HR HT H IH|c cs l Hc H IH]; intro T; [constructor| | |].
  - apply Forall_cons_iff in T. destruct T as [[] _].
  - apply Forall_cons_iff in T. destruct T as [_ T]. apply Forall_app. split; [|now apply IH]. destruct HT as (c & h & lf & r & _ & _ & _ & _ & _ & ->). apply Forall_cons; [cbn; auto|]. apply Forall_cons; [cbn; auto|]. apply Forall_cons; [cbn; auto|constructor].
  - apply Forall_cons_iff in T. now apply IH.
Qed.
Lemma track_others : forall op pre l C g nm s, Forall of_track l -> forallb (fun e => negb (String.eqb e (svname g nm))) ["inputs.track_curvature"; "inputs.track_heading"; "states.n"] = true ->
  expected op (pre ++ l) C g nm s = expected op pre C g nm s.
Proof.
  intros op pre l C g nm s H N. unfold expected. rewrite last_about_app. assert (last_about op g nm s l = None) as ->; [|reflexivity].
  unfold last_about. destruct (find _ _) as [c|] eqn:E; [|reflexivity]. exfalso. apply find_some in E. destruct E as [E1 E2]. apply in_rev in E1. rewrite Forall_forall in H. specialize (H c E1). unfold about in E2. apply Bool.andb_true_iff in E2. destruct E2 as [E2 _].
  apply String.eqb_eq in E2. cbn [forallb] in N. rewrite <- E2 in N. unfold of_track in H. cbn [In] in H. destruct H as [H|[H|[H|[]]]]; injection H as H1 H2; rewrite <- H1, <- H2 in N; discriminate.
Qed.

Lemma track_values : forall P read_csv n pts (cs : list (lcall P)) first l f o s pre C, let op := oc_op o in Forall (good_track read_csv) (LTrack first :: cs) -> Forall tuning cs -> reads read_csv (track_asked first cs) f -> drivable f ->
  lap_bounds read_csv trapezoidal n pts (LTrack first :: cs) l -> (1 <= n)%nat -> num_stages op = (n + 1)%nat -> (s <= n)%nat ->
  (forall g nm, In (g, nm) [("inputs", "track_curvature"); ("inputs", "track_heading"); ("states", "n")] -> last_about op g nm s C = None) ->
  exists k h lf r, road_at f (nth s pts 0 * road_length f) k h lf r /\ expected op (pre ++ l) C "inputs" "track_curvature" s = (Fin k, Fin k) /\ expected op (pre ++ l) C "inputs" "track_heading" s = (Fin h, Fin h) /\
    expected op (pre ++ l) C "states" "n" s = (Fin (- r), Fin lf).
Proof.
  intros P read_csv n pts cs first l f o s pre C op HG HT HF HD HB Hn NS Hs HC.
  assert (exists i j, (i < n)%nat /\ (j < 2)%nat /\ s = (i + j)%nat) as (i & j & Hi & Hj & Es). { destruct (Nat.eq_dec s n) as [->|N]; [exists (n - 1)%nat, 1%nat; lia|exists s, 0%nat; lia]. }
  assert ((nth i pts 0 + unit_point trapezoidal j * interval_length pts i) * road_length f = nth s pts 0 * road_length f) as ED.
  { subst s. unfold interval_length. destruct j as [|[|j]]; [| |lia]; unfold unit_point; cbn [t_points trapezoidal nth]; rewrite ?Nat.add_0_r, ?Nat.add_1_r; ring. }
  assert (forall g nm, unbounded_after g nm (LTrack first :: cs)) as UA.
  { intros g nm. split; [right; exact I|]. clear - HT. induction HT as [|c cs Hc _ IH]; [exact I|]. split; [right|exact IH]. destruct c as [[]|]; try contradiction; exact I. }
  assert (forall g nm, no_char dot g = true -> no_char dot nm = true -> exists three, track_settings f trapezoidal n pts three /\ (last_about op g nm s three <> None -> last_about op g nm s (pre ++ l) = last_about op g nm s three)) as LT.
  { intros g nm Hg Hnm. apply (lap_last read_csv op trapezoidal n pts g nm s (LTrack first :: cs) l Hg Hnm HB first first f); [now left|exact HF|apply UA]. }
  destruct (track_ok read_csv _ f HF HD) as (tk & _ & _ & _ & RD). destruct (RD (nth s pts 0 * road_length f)) as (k & h & lf & r & _ & _ & _ & _ & RA & _). exists k, h, lf, r. split; [exact RA|].
  assert (forall three, track_settings f trapezoidal n pts three -> last_about op "inputs" "track_curvature" s three <> None /\ last_about op "inputs" "track_heading" s three <> None /\ last_about op "states" "n" s three <> None /\
     match last_about op "inputs" "track_curvature" s three with Some c => value_for "inputs" s c | None => (NegInf, PosInf) end = (Fin k, Fin k) /\
     match last_about op "inputs" "track_heading" s three with Some c => value_for "inputs" s c | None => (NegInf, PosInf) end = (Fin h, Fin h) /\
     match last_about op "states" "n" s three with Some c => value_for "states" s c | None => (NegInf, PosInf) end = (Fin (- r), Fin lf)) as TS.
  { intros three (c0 & h1 & l0 & r0 & L1 & L2 & L3 & L4 & A & ->). cbn [t_stages trapezoidal Nat.sub] in L1, L2, L3, L4. rewrite Nat.mul_1_r in L1, L2, L3, L4. specialize (A i j Hi Hj). cbv zeta in A. rewrite ED in A. rewrite stage_tr, <- Es in A. destruct (road_unique f _ _ _ _ _ _ _ _ _ HD RA A) as (Ek & Eh & El & Er).
    unfold last_about. cbn. unfold value_for. cbn. split; [discriminate|]. split; [discriminate|]. split; [discriminate|].
    assert (forall (w : R -> ebound) q d, List.length q = (n + 1)%nat -> nth s (map w q) d = w (nth s q 0)) as NM by (intros w q d E; rewrite (nth_indep _ d (w 0)) by (rewrite map_length; lia); apply map_nth).
    rewrite !NM by assumption. subst k h lf r. auto. }
  unfold expected. rewrite !HC by (cbn; auto). split; [|split].
  - destruct (LT "inputs" "track_curvature" eq_refl eq_refl) as (three & T1 & T2). destruct (TS three T1) as (N1 & _ & _ & V & _ & _). rewrite (T2 N1). exact V.
  - destruct (LT "inputs" "track_heading" eq_refl eq_refl) as (three & T1 & T2). destruct (TS three T1) as (_ & N1 & _ & _ & V & _). rewrite (T2 N1). exact V.
  - destruct (LT "states" "n" eq_refl eq_refl) as (three & T1 & T2). destruct (TS three T1) as (_ & _ & N1 & _ & _ & V). rewrite (T2 N1). exact V.
Qed.

(** the limits that do not depend on the track *)
Section Limits.
Variables (op : dvo) (n : nat).
Hypothesis NS : num_stages op = (n + 1)%nat.
Let B0 := map of_bound default_bounds.
Let C := map of_bc (default_bcs true).
Lemma exp_time : forall s, (s <= n)%nat -> expected op B0 C "states" "time" s = if Nat.eqb s 0 then (Fin 0, Fin 0) else (Fin 0, PosInf).
Proof using NS.
  intros s Hs. pose proof (at_zero op n NS s Hs) as Z0. unfold expected, last_about, B0, C, default_bcs. cbn [map rev app find]. unfold about at 1. cbn [of_bc k_g k_n k_stage sbc cstage cg cn cv svname String.append String.eqb Ascii.eqb Bool.eqb andb orb].
  rewrite Z0. destruct (Nat.eqb s 0); reflexivity.
Qed.
Definition plain_limits : list (string * string * ebound * ebound) := filter (fun '(g, nm, _, _) => negb (String.eqb nm "time")) usual_bounds.
Lemma exp_plain : forall g nm l u s, In (g, nm, l, u) plain_limits -> expected op B0 C g nm s = (l, u).
Proof using. intros g nm l u s H. cbn in H. repeat (destruct H as [H|H]; [injection H as <- <- <- <-; reflexivity|]). contradiction. Qed.
Lemma exp_dots : forall nm s, In nm (kin_states ++ veh_states) -> expected op B0 C "states_dot" nm s = (NegInf, PosInf).
Proof using. intros nm s H. cbn in H. repeat (destruct H as [<-|H]; [reflexivity|]). contradiction. Qed.
Lemma exp_axy : forall s, expected op B0 C "inputs" "ax" s = (NegInf, PosInf) /\ expected op B0 C "inputs" "ay" s = (NegInf, PosInf).
Proof using. intro s. split; reflexivity. Qed.
End Limits.
