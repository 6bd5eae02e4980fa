(** Lemmas for C53: the trajectories of the drone problem are the flights. *)
From Verif Require Import Base RBase TreeModel UtilsModel UtilsProofs IoModel CollocModel CollocProofs CollocProps MeshModel MeshProps OcpModel OcpSpec OcpProofs OcpProps NlpModel AlgModel AlgSpec ConvModel ConvSpec CyclicSpec BoundModel BoundSpec ScaleModel ScaleSpec
  BuildModel BuildSpec BuildProofs BuildProofs4 BuildProofs5 BuildProofs6 GuessProofs LapModel DroneModel FlightModel FlightSpec.

Definition in_of (f om : R) : dict R := [("f", f); ("omega", om)].
Definition st_of (x vx z vz th : R) : dict R := [("x", x); ("x_dot", vx); ("z", z); ("z_dot", vz); ("theta", th)].
Lemma five_keys : forall (d : dict R), keys d = drone_states -> exists x vx z vz th, d = st_of x vx z vz th.
Proof.
  intros [|[k1 x] [|[k2 vx] [|[k3 z] [|[k4 vz] [|[k5 th] [|? ?]]]]]] E; try discriminate. cbn in E. injection E as -> -> -> -> ->. now exists x, vx, z, vz, th.
Qed.
Lemma two_keys : forall (d : dict R), keys d = drone_inputs -> exists f om, d = in_of f om.
Proof. intros [|[k1 f] [|[k2 om] [|? ?]]] E; try discriminate. cbn in E. injection E as -> ->. now exists f, om. Qed.
Lemma drone_sem : forall g x vx z vz th f om, drone_forward [("gravity", g)] (st_of x vx z vz th) (in_of f om) =
  Ok ([("x", vx); ("x_dot", f * sin th); ("z", vz); ("z_dot", f * cos th - g); ("theta", om)], [("sin_theta", sin th); ("f_omega", om * f)]).
Proof. reflexivity. Qed.

Lemma drone_model_ok : forall jac hess js hs, shapes jac hess js hs -> model_ok (drone_model jac hess js hs) ["sin_theta"].
Proof.
  intros jac hess js hs (S1 & S2 & S3 & S4). constructor.
  - split; [reflexivity|]. split; [|split; intros q Hq; cbn in *; tauto]. intros g Hg. cbn in Hg. repeat (destruct Hg as [<-|Hg]; [cbn; repeat constructor; cbn; intuition discriminate|]). contradiction.
  - intros nm [H|H]; cbn in H; repeat (destruct H as [<-|H]; [reflexivity|]); contradiction.
  - intros p mesh ds di Hs Hi. destruct (five_keys ds Hs) as (x & vx & z & vz & th & ->). destruct (two_keys di Hi) as (f & om & ->). eexists. eexists. split; [apply drone_sem|]. split; intros q Hq; cbn in *; tauto.
  - exact S1.
  - exact S2.
  - exact S3.
  - exact S4.
Qed.

(** ** the bounds at every stage *)
Definition limit_of (nm : string) : R * R := if String.eqb nm "theta" then (-10 * PI, 10 * PI) else (-50, 50).
Definition end_of (nm : string) : R := if String.eqb nm "theta" then 2 * PI else if String.eqb nm "z" then 5 else 0.
Section Bounds.
Variables (op : dvo) (n : nat).
Hypothesis NS : num_stages op = (n + 1)%nat.
Lemma at_zero : forall s, (s <= n)%nat -> (Z.eqb 0 (Z.of_nat s) || Z.eqb 0 (Z.of_nat s - Z.of_nat (num_stages op)))%Z = Nat.eqb s 0.
Proof using NS. intros s Hs. rewrite NS. destruct (Nat.eqb_spec s 0) as [->|N]; [reflexivity|]. destruct (Z.eqb_spec 0 (Z.of_nat s)); [lia|]. destruct (Z.eqb_spec 0 (Z.of_nat s - Z.of_nat (n + 1))); [lia|reflexivity]. Qed.
Lemma at_end : forall s, (s <= n)%nat -> (Z.eqb (-1) (Z.of_nat s) || Z.eqb (-1) (Z.of_nat s - Z.of_nat (num_stages op)))%Z = Nat.eqb s n.
Proof using NS. intros s Hs. rewrite NS. destruct (Z.eqb_spec (-1) (Z.of_nat s)); [lia|]. destruct (Z.eqb_spec (-1) (Z.of_nat s - Z.of_nat (n + 1))); destruct (Nat.eqb_spec s n); try lia; reflexivity. Qed.
Let B := map of_bound drone_bounds.
Let C := map of_bc drone_bcs.
Lemma exp_state : forall nm s, In nm drone_states -> (s <= n)%nat -> expected op B C "states" nm s =
  if Nat.eqb s n then (Fin (end_of nm), Fin (end_of nm)) else if Nat.eqb s 0 then (Fin 0, Fin 0) else (Fin (fst (limit_of nm)), Fin (snd (limit_of nm))).
Proof using NS.
  intros nm s H Hs. unfold expected, last_about, B, C, drone_bounds, drone_bcs. cbn [map rev app]. cbn [drone_states In] in H.
  pose proof (at_zero s Hs) as Z0. pose proof (at_end s Hs) as Z1.
  repeat (destruct H as [<-|H]; [unfold about; cbn [of_bc of_bound k_g k_n k_stage k_v at_stage sbound cstage cg cn cv bg bn bv find svname String.append String.eqb Ascii.eqb Bool.eqb andb orb]; rewrite Z0, Z1; destruct (Nat.eqb s n); [reflexivity|]; destruct (Nat.eqb s 0); reflexivity|]).
  contradiction.
Qed.
Lemma exp_dot : forall nm s, In nm drone_states -> expected op B C "states_dot" nm s = (NegInf, PosInf).
Proof using. intros nm s H. cbn [drone_states In] in H. repeat (destruct H as [<-|H]; [reflexivity|]). contradiction. Qed.
Lemma exp_f : forall s, expected op B C "inputs" "f" s = (Fin 1, Fin 20). Proof using. reflexivity. Qed.
Lemma exp_om : forall s, expected op B C "inputs" "omega" s = (Fin (-10), Fin 10). Proof using. reflexivity. Qed.
Lemma exp_con : forall s, expected op B C "con_outputs" "sin_theta" s = (NegInf, PosInf). Proof using. reflexivity. Qed.
Lemma exp_T : forall s, expected op B C "global" "mesh_scale" s = (Fin (1 / 10), Fin 50). Proof using. reflexivity. Qed.
End Bounds.

(** ** trajectories and flights *)
Section Flights.
Variables (o : ocp) (n : nat) (pl : list R) (g : R).
Hypothesis NS : num_stages (oc_op o) = (n + 1)%nat.
Hypothesis Hn : (1 <= n)%nat.
Let B := map of_bound drone_bounds.
Let C := map of_bc drone_bcs.
Let fwd : dict R -> dict R -> R -> result (dict R * dict R) := fun ds di _ => drone_forward [("gravity", g)] ds di.
Notation traj := (trajectory o drone_states drone_inputs ["sin_theta"] [] fwd trapezoidal n pl None None B C).

Lemma stage_tr : forall i j, stage_of trapezoidal i j = (i + j)%nat.
Proof using. intros i j. unfold stage_of. cbn [trapezoidal t_stages Nat.sub]. now rewrite Nat.mul_1_r. Qed.
Lemma cover_tr : forall s, (s <= n)%nat -> exists i j, (i < n)%nat /\ (j < 2)%nat /\ s = (i + j)%nat.
Proof using NS Hn. intros s Hs. destruct (Nat.eq_dec s n) as [->|N]; [exists (n - 1)%nat, 1%nat; lia|exists s, 0%nat; lia]. Qed.
(** the value of a variable, 0 if there is none *)
Definition get (x : list R) (gr nm : string) (s : nat) : R := match get_var (oc_op o) x gr nm (Z.of_nat s) with Ok v => v | Raise _ => 0 end.
Lemma get_val : forall x gr nm s v, val o x gr nm s v -> get x gr nm s = v.
Proof using. intros x gr nm s v H. unfold get. unfold val, value_at in H. now rewrite H. Qed.
Definition plan_of (x : list R) : plan := {| f_T := get x "global" "mesh_scale" 0; f_x := get x "states" "x"; f_vx := get x "states" "x_dot"; f_z := get x "states" "z"; f_vz := get x "states" "z_dot";
  f_th := get x "states" "theta"; f_f := get x "inputs" "f"; f_om := get x "inputs" "omega" |}.

Lemma st_holds : forall x s a b c d e, holds o x "states" drone_states s (st_of a b c d e) -> val o x "states" "x" s a /\ val o x "states" "x_dot" s b /\ val o x "states" "z" s c /\ val o x "states" "z_dot" s d /\ val o x "states" "theta" s e.
Proof using. intros x s a b c d e [_ H]. split; [|split; [|split; [|split]]]; apply H; reflexivity. Qed.
Lemma in_holds : forall x s a b, holds o x "inputs" drone_inputs s (in_of a b) -> val o x "inputs" "f" s a /\ val o x "inputs" "omega" s b.
Proof using. intros x s a b [_ H]. split; apply H; reflexivity. Qed.

Lemma traj_logs : forall x, traj x -> logs n g o x (plan_of x).
Proof using NS Hn.
  intros x [L TM TC _ TB]. constructor.
  - exact L.
  - destruct (TB "global" "mesh_scale" 0%nat) as (v & V & _); [right; right; right; auto|cbn; lia|]. cbn [plan_of f_T]. now rewrite (get_val _ _ _ _ _ V).
  - intros s Hs. destruct (cover_tr s Hs) as (i & j & Hi & Hj & ->). destruct (TM i j Hi Hj) as (T & ds & di & sd & out & HT & HD & HI & E & D1 & D2 & _). rewrite !stage_tr in *.
    destruct (five_keys ds (proj1 HD)) as (a & b & c & d & e & ->). destruct (two_keys di (proj1 HI)) as (f & om & ->). unfold fwd in E. rewrite drone_sem in E. injection E as <- <-.
    destruct (st_holds _ _ _ _ _ _ _ HD) as (V1 & V2 & V3 & V4 & V5). destruct (in_holds _ _ _ _ HI) as (V6 & V7).
    assert (forall nm v, In nm drone_states -> dget nm [("x", b); ("x_dot", f * sin e); ("z", d); ("z_dot", f * cos e - g); ("theta", om)] = Some v -> val o x "states_dot" nm (i + j) v) as D.
    { intros nm v Hnm Hv. destruct (D1 nm Hnm) as (w & W1 & W2). rewrite Hv in W1. injection W1 as ->. exact W2. }
    destruct (D2 "sin_theta" (or_introl eq_refl)) as (w & W1 & W2). injection W1 as <-.
    cbn [plan_of f_x f_vx f_z f_vz f_th f_f f_om]. rewrite (get_val _ _ _ _ _ V1), (get_val _ _ _ _ _ V2), (get_val _ _ _ _ _ V3), (get_val _ _ _ _ _ V4), (get_val _ _ _ _ _ V5), (get_val _ _ _ _ _ V6), (get_val _ _ _ _ _ V7).
    repeat match goal with |- _ /\ _ => split end; try assumption; apply D; first [reflexivity|cbn; tauto].
Qed.
Lemma moves_iff : forall x k nm (q r : nat -> R), logs n g o x k -> In nm drone_states -> (forall s, (s <= n)%nat -> val o x "states" nm s (q s) /\ val o x "states_dot" nm s (r s)) ->
  (moves n pl k q r <-> (forall i kk, (i < n)%nat -> (kk < t_stages trapezoidal - 1)%nat -> exists L (X D : nat -> R), mesh_length o None x L /\
      (forall j, (j < t_stages trapezoidal)%nat -> val o x "states" nm (stage_of trapezoidal i j) (X j) /\ val o x "states_dot" nm (stage_of trapezoidal i j) (D j)) /\
      rsum (map (fun j => entry kk j (t_A trapezoidal) * X j) (seq 0 (t_stages trapezoidal))) = interval_length pl i * L * rsum (map (fun j => entry kk j (t_B trapezoidal) * D j) (seq 0 (t_stages trapezoidal))))).
Proof using NS Hn.
  intros x k nm q r LG Hnm V. split.
  - intros M i kk Hi Hkk. cbn in Hkk. assert (kk = 0)%nat as -> by lia. exists (f_T k), (fun j => q (i + j)%nat), (fun j => r (i + j)%nat). split; [apply (lg_T _ _ _ _ _ LG)|]. split.
    + intros j Hj. cbn in Hj. rewrite stage_tr. apply V. lia.
    + specialize (M i Hi). cbn. rewrite Nat.add_0_r, Nat.add_1_r. unfold interval_length. lra.
  - intros H i Hi. destruct (H i 0%nat Hi) as (L & X & D & HL & VX & E); [cbn; lia|]. pose proof (length_fun _ _ _ _ _ HL (lg_T _ _ _ _ _ LG)) as ->.
    destruct (VX 0%nat) as [A0 B0]; [cbn; lia|]. destruct (VX 1%nat) as [A1 B1]; [cbn; lia|]. rewrite stage_tr in *. rewrite Nat.add_0_r in A0, B0. rewrite Nat.add_1_r in A1, B1.
    destruct (V i ltac:(lia)) as [C0 D0]. destruct (V (S i) ltac:(lia)) as [C1 D1].
    rewrite (val_fun _ _ _ _ _ _ _ C0 A0), (val_fun _ _ _ _ _ _ _ C1 A1), (val_fun _ _ _ _ _ _ _ D0 B0), (val_fun _ _ _ _ _ _ _ D1 B1). cbn in E. unfold interval_length in E. lra.
Qed.
Lemma traj_flight : forall x, traj x -> flight n pl g (plan_of x).
Proof using NS Hn.
  intros x TJ. pose proof (traj_logs x TJ) as LG. destruct TJ as [L TM TC _ TB]. set (k := plan_of x) in *. pose proof (lg_at _ _ _ _ _ LG) as VA.
  assert (forall nm (q r : nat -> R), In nm drone_states -> (forall s, (s <= n)%nat -> val o x "states" nm s (q s) /\ val o x "states_dot" nm s (r s)) -> moves n pl k q r) as MV.
  { intros nm q r Hnm V. apply (moves_iff x k nm q r LG Hnm V). intros i kk Hi Hkk. exact (TC i kk nm Hi Hkk Hnm). }
  assert (forall gr nm s v, known_var drone_states drone_inputs ["sin_theta"] None gr nm -> (s <= n)%nat -> val o x gr nm s v -> ele (fst (expected (oc_op o) B C gr nm s)) v /\ ege (snd (expected (oc_op o) B C gr nm s)) v) as BD.
  { intros gr nm s v HK Hs V. destruct (TB gr nm s HK) as (w & W & W1 & W2); [cbn; lia|]. rewrite <- (val_fun _ _ _ _ _ _ _ W V). auto. }
  assert (forall nm s v, In nm drone_states -> (s <= n)%nat -> val o x "states" nm s v -> fst (limit_of nm) <= v <= snd (limit_of nm) /\ (s = 0%nat -> v = 0) /\ (s = n -> v = end_of nm)) as BS.
  { intros nm s v Hnm Hs V. pose proof (BD "states" nm s v ltac:(left; auto) Hs V) as [W1 W2]. unfold B, C in W1, W2. rewrite (exp_state _ _ NS nm s Hnm Hs) in W1, W2. pose proof PI_RGT_0 as HP.
    assert (fst (limit_of nm) <= 0 <= snd (limit_of nm) /\ fst (limit_of nm) <= end_of nm <= snd (limit_of nm)) as [R0 R1].
    { cbn in Hnm. repeat (destruct Hnm as [<-|Hnm]; [unfold limit_of, end_of; cbn [String.eqb Ascii.eqb Bool.eqb fst snd]; lra|]). contradiction. }
    destruct (Nat.eqb_spec s n) as [->|N1]; [|destruct (Nat.eqb_spec s 0) as [->|N0]]; cbn [fst snd ele ege] in W1, W2.
    - split; [lra|]. split; [intros; lia|intros _; lra].
    - split; [lra|]. split; [intros _; lra|intros; lia].
    - split; [lra|]. split; intros; lia. }
  assert (forall s, (s <= n)%nat -> 1 <= f_f k s <= 20 /\ -10 <= f_om k s <= 10) as BI.
  { intros s Hs. destruct (VA s Hs) as (_ & _ & _ & _ & _ & V1 & V2 & _). destruct (BD "inputs" "f" s _ ltac:(right; left; cbn; tauto) Hs V1) as [W1 W2]. destruct (BD "inputs" "omega" s _ ltac:(right; left; cbn; tauto) Hs V2) as [W3 W4].
    unfold B, C in W1, W2, W3, W4. rewrite exp_f in W1, W2. rewrite exp_om in W3, W4. cbn [fst snd ele ege] in W1, W2, W3, W4. lra. }
  assert (1 / 10 <= f_T k <= 50) as BT.
  { destruct (BD "global" "mesh_scale" 0%nat _ ltac:(right; right; right; auto) ltac:(lia) (lg_T _ _ _ _ _ LG)) as [W1 W2]. unfold B, C in W1, W2. rewrite exp_T in W1, W2. cbn [fst snd ele ege] in W1, W2. lra. }
  constructor.
  - apply (MV "x"); [cbn; tauto|]. intros s Hs. specialize (VA s Hs). tauto.
  - apply (MV "x_dot"); [cbn; tauto|]. intros s Hs. specialize (VA s Hs). tauto.
  - apply (MV "z"); [cbn; tauto|]. intros s Hs. specialize (VA s Hs). tauto.
  - apply (MV "z_dot"); [cbn; tauto|]. intros s Hs. specialize (VA s Hs). tauto.
  - apply (MV "theta"); [cbn; tauto|]. intros s Hs. specialize (VA s Hs). tauto.
  - exact BT.
  - intros s Hs. specialize (BI s Hs). specialize (VA s Hs). destruct VA as (V1 & V2 & V3 & V4 & V5 & _).
    apply (BS "x" s) in V1; [|cbn; tauto|exact Hs]. apply (BS "x_dot" s) in V2; [|cbn; tauto|exact Hs]. apply (BS "z" s) in V3; [|cbn; tauto|exact Hs]. apply (BS "z_dot" s) in V4; [|cbn; tauto|exact Hs]. apply (BS "theta" s) in V5; [|cbn; tauto|exact Hs].
    unfold limit_of in V1, V2, V3, V4, V5. cbn [String.eqb Ascii.eqb Bool.eqb fst snd] in V1, V2, V3, V4, V5. lra.
  - destruct (VA 0%nat ltac:(lia)) as (V1 & V2 & V3 & V4 & V5 & _).
    apply BS in V1; [|cbn; tauto|lia]. apply BS in V2; [|cbn; tauto|lia]. apply BS in V3; [|cbn; tauto|lia]. apply BS in V4; [|cbn; tauto|lia]. apply BS in V5; [|cbn; tauto|lia].
    destruct V1 as (_ & V1 & _), V2 as (_ & V2 & _), V3 as (_ & V3 & _), V4 as (_ & V4 & _), V5 as (_ & V5 & _). exact (conj (V1 eq_refl) (conj (V2 eq_refl) (conj (V3 eq_refl) (conj (V4 eq_refl) (V5 eq_refl))))).
  - destruct (VA n ltac:(lia)) as (V1 & V2 & V3 & V4 & V5 & _).
    apply BS in V1; [|cbn; tauto|lia]. apply BS in V2; [|cbn; tauto|lia]. apply BS in V3; [|cbn; tauto|lia]. apply BS in V4; [|cbn; tauto|lia]. apply BS in V5; [|cbn; tauto|lia].
    destruct V1 as (_ & _ & V1), V2 as (_ & _ & V2), V3 as (_ & _ & V3), V4 as (_ & _ & V4), V5 as (_ & _ & V5). exact (conj (V1 eq_refl) (conj (V2 eq_refl) (conj (V3 eq_refl) (conj (V4 eq_refl) (V5 eq_refl))))).
Qed.
Lemma flight_traj : forall x k, logs n g o x k -> flight n pl g k -> traj x.
Proof using NS Hn.
  intros x k LG FL. pose proof (lg_at _ _ _ _ _ LG) as VA. constructor.
  - apply (lg_len _ _ _ _ _ LG).
  - intros i j Hi Hj s. assert (s <= n)%nat as Hs by (unfold s; rewrite stage_tr; cbn in Hj; lia). destruct (VA s Hs) as (V1 & V2 & V3 & V4 & V5 & V6 & V7 & V8 & V9 & V10 & V11 & V12 & V13).
    exists (f_T k), (st_of (f_x k s) (f_vx k s) (f_z k s) (f_vz k s) (f_th k s)), (in_of (f_f k s) (f_om k s)). eexists. eexists. split; [apply (lg_T _ _ _ _ _ LG)|]. split; [|split; [|split; [apply drone_sem|split; [|split]]]].
    + split; [reflexivity|]. intros nm v Hv. apply dget_in in Hv. cbn in Hv. repeat (destruct Hv as [Hv|Hv]; [injection Hv as <- <-; assumption|]). contradiction.
    + split; [reflexivity|]. intros nm v Hv. apply dget_in in Hv. cbn in Hv. repeat (destruct Hv as [Hv|Hv]; [injection Hv as <- <-; assumption|]). contradiction.
    + intros nm H. cbn in H. repeat (destruct H as [<-|H]; [eexists; split; [reflexivity|assumption]|]). contradiction.
    + intros nm [<-|[]]. eexists; split; [reflexivity|assumption].
    + intros nm [].
  - intros i kk nm Hi Hkk Hnm. cbn in Hnm. destruct FL as [F1 F2 F3 F4 F5 _ _ _ _].
    destruct Hnm as [<-|[<-|[<-|[<-|[<-|[]]]]]].
    + apply (moves_iff x k "x" (f_x k) (f_vx k) LG); [cbn; tauto| |exact F1|exact Hi|exact Hkk]. intros s Hs. specialize (VA s Hs). tauto.
    + apply (moves_iff x k "x_dot" (f_vx k) (fun s => f_f k s * sin (f_th k s)) LG); [cbn; tauto| |exact F2|exact Hi|exact Hkk]. intros s Hs. specialize (VA s Hs). tauto.
    + apply (moves_iff x k "z" (f_z k) (f_vz k) LG); [cbn; tauto| |exact F3|exact Hi|exact Hkk]. intros s Hs. specialize (VA s Hs). tauto.
    + apply (moves_iff x k "z_dot" (f_vz k) (fun s => f_f k s * cos (f_th k s) - g) LG); [cbn; tauto| |exact F4|exact Hi|exact Hkk]. intros s Hs. specialize (VA s Hs). tauto.
    + apply (moves_iff x k "theta" (f_th k) (f_om k) LG); [cbn; tauto| |exact F5|exact Hi|exact Hkk]. intros s Hs. specialize (VA s Hs). tauto.
  - discriminate.
  - intros gr nm s HK Hs. cbn in Hs. assert (s <= n)%nat as Hs' by lia. destruct (VA s Hs') as (V1 & V2 & V3 & V4 & V5 & V6 & V7 & V8 & V9 & V10 & V11 & V12 & V13).
    destruct (fl_limits _ _ _ _ FL s Hs') as (W1 & W2 & W3 & W4 & W5 & W6 & W7). pose proof (fl_start _ _ _ _ FL) as ST. pose proof (fl_end _ _ _ _ FL) as EN. destruct HK as [[[-> | ->] Hnm]|[[-> Hnm]|[[-> Hnm]|(-> & _ & ->)]]].
    + assert (exists v, val o x "states" nm s v /\ fst (limit_of nm) <= v <= snd (limit_of nm) /\ (s = 0%nat -> v = 0) /\ (s = n -> v = end_of nm)) as (v & V & Q1 & Q2 & Q3).
      { cbn in Hnm. destruct Hnm as [<-|[<-|[<-|[<-|[<-|[]]]]]]; eexists; (split; [eassumption|]); unfold limit_of, end_of; cbn [String.eqb Ascii.eqb Bool.eqb fst snd]; (split; [lra|]); (split; intros ->; tauto). }
      exists v. split; [exact V|]. unfold B, C. rewrite (exp_state _ _ NS nm s Hnm Hs'). destruct (Nat.eqb_spec s n) as [->|N1]; [|destruct (Nat.eqb_spec s 0) as [->|N0]]; cbn [fst snd ele ege]; [rewrite Q3 by reflexivity; lra|rewrite Q2 by reflexivity; lra|lra].
    + unfold B, C. rewrite (exp_dot _ nm s Hnm). cbn in Hnm. destruct Hnm as [<-|[<-|[<-|[<-|[<-|[]]]]]]; eexists; (split; [eassumption|]); split; exact I.
    + cbn in Hnm. unfold B, C. destruct Hnm as [<-|[<-|[]]]; eexists; (split; [eassumption|]); [rewrite exp_f|rewrite exp_om]; cbn [fst snd ele ege]; lra.
    + cbn in Hnm. destruct Hnm as [<-|[]]. unfold B, C. rewrite exp_con. eexists; (split; [eassumption|]); split; exact I.
    + unfold B, C. rewrite exp_T. exists (f_T k). split; [pose proof (lg_T _ _ _ _ _ LG) as V; exact V|]. pose proof (fl_time _ _ _ _ FL). cbn [fst snd ele ege]. lra.
Qed.
End Flights.
