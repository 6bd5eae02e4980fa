(** Lemmas for C59: the trajectories of the time-domain problem are the slides. *)
From Verif Require Import Base RBase TreeModel UtilsModel UtilsProofs IoModel CollocModel CollocProofs CollocProps MeshModel MeshProps OcpModel OcpSpec OcpProofs OcpProps NlpModel AlgModel AlgSpec ConvModel ConvSpec CyclicSpec BoundModel BoundSpec ScaleModel ScaleSpec
  BuildModel BuildSpec BuildProofs BuildProofs4 BuildProofs5 BuildProofs6 GuessProofs LapModel FlightProofs BrachModel BrachSpec2.

Definition sv (v x y : R) : dict R := [("v", v); ("x", x); ("y", y)].
Definition th_of (th : R) : dict R := [("theta", th)].
Lemma three_keys : forall (d : dict R), keys d = time_states -> exists v x y, d = sv v x y.
Proof. intros [|[k1 v] [|[k2 x] [|[k3 y] [|? ?]]]] E; try discriminate. cbn in E. injection E as -> -> ->. now exists v, x, y. Qed.
Lemma one_key : forall (d : dict R), keys d = brach_inputs -> exists th, d = th_of th.
Proof. intros [|[k1 th] [|? ?]] E; try discriminate. cbn in E. injection E as ->. now exists th. Qed.
Lemma time_fwd : forall g v x y th, time_forward [("gravity", g)] (sv v x y) (th_of th) =
  Ok ([("v", - g * sin th); ("x", cos th * v); ("y", sin th * v)], [("theta", th)]).
Proof. reflexivity. Qed.

Lemma time_model_ok : forall jac hess js hs, sizes jac hess js hs -> model_ok (time_model jac hess js hs) [].
Proof.
  intros jac hess js hs (S1 & S2 & S3 & S4). constructor.
  - split; [reflexivity|]. split; [|split; intros q Hq; cbn in *; tauto]. intros g Hg. cbn in Hg. repeat (destruct Hg as [<-|Hg]; [cbn; repeat constructor; cbn; intuition discriminate|]). contradiction.
  - intros nm [H|H]; cbn in H; repeat (destruct H as [<-|H]; [reflexivity|]); contradiction.
  - intros p mesh ds di Hs Hi. destruct (three_keys ds Hs) as (v & x & y & ->). destruct (one_key di Hi) as (th & ->). eexists. eexists. split; [apply time_fwd|]. split; intros q Hq; cbn in *; tauto.
  - exact S1.
  - exact S2.
  - exact S3.
  - exact S4.
Qed.

(** ** the bounds at every stage *)
Section Bounds.
Variables (op : dvo) (n : nat) (dx dy : R).
Hypothesis NS : num_stages op = (n + 1)%nat.
Let B := map of_bound time_bounds.
Let C := map of_bc (time_bcs dx dy).
Definition finish (nm : string) : option R := if String.eqb nm "x" then Some dx else if String.eqb nm "y" then Some dy else None.
Lemma exp_st : forall nm s, In nm time_states -> (s <= n)%nat -> expected op B C "states" nm s =
  match (if Nat.eqb s n then finish nm else None) with Some v => (Fin v, Fin v) | None => if Nat.eqb s 0 then (Fin 0, Fin 0) else (NegInf, PosInf) end.
Proof using NS.
  intros nm s H Hs. unfold expected, last_about, B, C, time_bounds, time_bcs. cbn [map rev app]. cbn [time_states In] in H.
  pose proof (at_zero op n NS s Hs) as Z0. pose proof (at_end op n NS s Hs) as Z1.
  repeat (destruct H as [<-|H]; [unfold about, finish; cbn [of_bc of_bound k_g k_n k_stage k_v pin sbound cstage cg cn cv bg bn bv find svname String.append String.eqb Ascii.eqb Bool.eqb andb orb]; rewrite ?Z0, ?Z1; destruct (Nat.eqb s n); try reflexivity; destruct (Nat.eqb s 0); reflexivity|]).
  contradiction.
Qed.
Lemma exp_sd : forall nm s, In nm time_states -> expected op B C "states_dot" nm s = (NegInf, PosInf).
Proof using. intros nm s H. cbn [time_states In] in H. repeat (destruct H as [<-|H]; [reflexivity|]). contradiction. Qed.
Lemma exp_th : forall s, expected op B C "inputs" "theta" s = (Fin (- PI / 2), Fin (PI / 2)). Proof using. reflexivity. Qed.
Lemma exp_ms : forall s, expected op B C "global" "mesh_scale" s = (Fin (1 / 100), Fin 10). Proof using. reflexivity. Qed.
End Bounds.

(** ** trajectories and slides *)
Section Slides.
Variables (o : ocp) (n : nat) (pl : list R) (g dx dy : R).
Hypothesis NS : num_stages (oc_op o) = (n + 1)%nat.
Hypothesis Hn : (1 <= n)%nat.
Let B := map of_bound time_bounds.
Let C := map of_bc (time_bcs dx dy).
Let fwd : dict R -> dict R -> R -> result (dict R * dict R) := fun ds di _ => time_forward [("gravity", g)] ds di.
Notation traj := (trajectory o time_states brach_inputs [] [] fwd trapezoidal n pl None None B C).
Notation getv := (FlightProofs.get o).

Definition slide_of (x : list R) : slide := {| s_T := getv x "global" "mesh_scale" 0%nat; s_v := getv x "states" "v"; s_x := getv x "states" "x"; s_y := getv x "states" "y"; s_th := getv x "inputs" "theta" |}.
Lemma sv_holds : forall x s a b c, holds o x "states" time_states s (sv a b c) -> val o x "states" "v" s a /\ val o x "states" "x" s b /\ val o x "states" "y" s c.
Proof using. intros x s a b c [_ H]. split; [|split]; apply H; reflexivity. Qed.
Lemma th_holds : forall x s a, holds o x "inputs" brach_inputs s (th_of a) -> val o x "inputs" "theta" s a.
Proof using. intros x s a [_ H]. apply H; reflexivity. Qed.

Lemma traj_records : forall x, traj x -> records n g o x (slide_of x).
Proof using NS Hn.
  intros x [L TM TC _ TB]. constructor.
  - exact L.
  - destruct (TB "global" "mesh_scale" 0%nat) as (v & V & _); [right; right; right; auto|cbn; lia|]. cbn [slide_of s_T]. now rewrite (get_val _ _ _ _ _ _ V).
  - intros s Hs. destruct (cover_tr o n NS Hn s Hs) as (i & j & Hi & Hj & ->). destruct (TM i j Hi Hj) as (T & ds & di & sd & out & HT & HD & HI & E & D1 & D2 & _). rewrite !stage_tr in *.
    destruct (three_keys ds (proj1 HD)) as (a & b & c & ->). destruct (one_key di (proj1 HI)) as (th & ->). unfold fwd in E. rewrite time_fwd in E. injection E as <- <-.
    destruct (sv_holds _ _ _ _ _ HD) as (V1 & V2 & V3). pose proof (th_holds _ _ _ HI) as V4.
    assert (forall nm v, In nm time_states -> dget nm [("v", - g * sin th); ("x", cos th * a); ("y", sin th * a)] = Some v -> val o x "states_dot" nm (i + j) v) as D.
    { intros nm v Hnm Hv. destruct (D1 nm Hnm) as (w & W1 & W2). rewrite Hv in W1. injection W1 as ->. exact W2. }
    cbn [slide_of s_x s_y s_v s_th]. rewrite (get_val _ _ _ _ _ _ V1), (get_val _ _ _ _ _ _ V2), (get_val _ _ _ _ _ _ V3), (get_val _ _ _ _ _ _ V4).
    repeat match goal with |- _ /\ _ => split end; try assumption; apply D; first [reflexivity|cbn; tauto].
Qed.
Lemma steps_iff : forall x k nm (q r : nat -> R), records n g o x k -> In nm time_states -> (forall s, (s <= n)%nat -> val o x "states" nm s (q s) /\ val o x "states_dot" nm s (r s)) ->
  (steps n pl k q r <-> (forall i kk, (i < n)%nat -> (kk < t_stages trapezoidal - 1)%nat -> exists L (X D : nat -> R), mesh_length o None x L /\
      (forall j, (j < t_stages trapezoidal)%nat -> val o x "states" nm (stage_of trapezoidal i j) (X j) /\ val o x "states_dot" nm (stage_of trapezoidal i j) (D j)) /\
      rsum (map (fun j => entry kk j (t_A trapezoidal) * X j) (seq 0 (t_stages trapezoidal))) = interval_length pl i * L * rsum (map (fun j => entry kk j (t_B trapezoidal) * D j) (seq 0 (t_stages trapezoidal))))).
Proof using NS Hn.
  intros x k nm q r LG Hnm V. split.
  - intros M i kk Hi Hkk. cbn in Hkk. assert (kk = 0)%nat as -> by lia. exists (s_T k), (fun j => q (i + j)%nat), (fun j => r (i + j)%nat). split; [apply (rc_T _ _ _ _ _ LG)|]. split.
    + intros j Hj. cbn in Hj. rewrite stage_tr. apply V. lia.
    + specialize (M i Hi). cbn. rewrite Nat.add_0_r, Nat.add_1_r. unfold interval_length. lra.
  - intros H i Hi. destruct (H i 0%nat Hi) as (L & X & D & HL & VX & E); [cbn; lia|]. pose proof (length_fun _ _ _ _ _ HL (rc_T _ _ _ _ _ LG)) as ->.
    destruct (VX 0%nat) as [A0 B0]; [cbn; lia|]. destruct (VX 1%nat) as [A1 B1]; [cbn; lia|]. rewrite stage_tr in *. rewrite Nat.add_0_r in A0, B0. rewrite Nat.add_1_r in A1, B1.
    destruct (V i ltac:(lia)) as [C0 D0]. destruct (V (S i) ltac:(lia)) as [C1 D1].
    rewrite (val_fun _ _ _ _ _ _ _ C0 A0), (val_fun _ _ _ _ _ _ _ C1 A1), (val_fun _ _ _ _ _ _ _ D0 B0), (val_fun _ _ _ _ _ _ _ D1 B1). cbn in E. unfold interval_length in E. lra.
Qed.
Lemma traj_slides : forall x, traj x -> slides n pl g dx dy (slide_of x).
Proof using NS Hn.
  intros x TJ. pose proof (traj_records x TJ) as LG. destruct TJ as [L TM TC _ TB]. set (k := slide_of x) in *. pose proof (rc_at _ _ _ _ _ LG) as VA.
  assert (forall nm (q r : nat -> R), In nm time_states -> (forall s, (s <= n)%nat -> val o x "states" nm s (q s) /\ val o x "states_dot" nm s (r s)) -> steps n pl k q r) as MV.
  { intros nm q r Hnm V. apply (steps_iff x k nm q r LG Hnm V). intros i kk Hi Hkk. exact (TC i kk nm Hi Hkk Hnm). }
  assert (forall gr nm s v, known_var time_states brach_inputs [] None gr nm -> (s <= n)%nat -> val o x gr nm s v -> ele (fst (expected (oc_op o) B C gr nm s)) v /\ ege (snd (expected (oc_op o) B C gr nm s)) v) as BD.
  { intros gr nm s v HK Hs V. destruct (TB gr nm s HK) as (w & W & W1 & W2); [cbn; lia|]. rewrite <- (val_fun _ _ _ _ _ _ _ W V). auto. }
  assert (forall nm s v, In nm time_states -> (s <= n)%nat -> val o x "states" nm s v -> (s = 0%nat -> v = 0) /\ (s = n -> forall w, finish dx dy nm = Some w -> v = w)) as BS.
  { intros nm s v Hnm Hs V. pose proof (BD "states" nm s v ltac:(left; auto) Hs V) as [W1 W2]. unfold B, C in W1, W2. rewrite (exp_st _ _ dx dy NS nm s Hnm Hs) in W1, W2.
    split.
    - intros ->. destruct (Nat.eqb_spec 0 n) as [E0|E0]; [lia|]. cbn [Nat.eqb fst snd ele ege] in W1, W2. lra.
    - intros -> w Hw. rewrite Nat.eqb_refl, Hw in W1, W2. cbn [fst snd ele ege] in W1, W2. lra. }
  constructor.
  - apply (MV "v"); [cbn; tauto|]. intros s Hs. specialize (VA s Hs). tauto.
  - apply (MV "x"); [cbn; tauto|]. intros s Hs. specialize (VA s Hs). tauto.
  - apply (MV "y"); [cbn; tauto|]. intros s Hs. specialize (VA s Hs). tauto.
  - destruct (BD "global" "mesh_scale" 0%nat _ ltac:(right; right; right; auto) ltac:(lia) (rc_T _ _ _ _ _ LG)) as [W1 W2]. unfold B, C in W1, W2. rewrite exp_ms in W1, W2. cbn [fst snd ele ege] in W1, W2. lra.
  - intros s Hs. destruct (VA s Hs) as (_ & _ & _ & V1 & _). destruct (BD "inputs" "theta" s _ ltac:(right; left; cbn; tauto) Hs V1) as [W1 W2]. unfold B, C in W1, W2. rewrite exp_th in W1, W2. cbn [fst snd ele ege] in W1, W2. lra.
  - destruct (VA 0%nat ltac:(lia)) as (V1 & V2 & V3 & _). apply BS in V1; [|cbn; tauto|lia]. apply BS in V2; [|cbn; tauto|lia]. apply BS in V3; [|cbn; tauto|lia]. exact (conj (proj1 V1 eq_refl) (conj (proj1 V2 eq_refl) (proj1 V3 eq_refl))).
  - destruct (VA n ltac:(lia)) as (V1 & V2 & V3 & _). apply BS in V2; [|cbn; tauto|lia]. apply BS in V3; [|cbn; tauto|lia]. exact (conj (proj2 V2 eq_refl _ eq_refl) (proj2 V3 eq_refl _ eq_refl)).
Qed.
Lemma slides_traj : forall x k, records n g o x k -> slides n pl g dx dy k -> traj x.
Proof using NS Hn.
  intros x k LG FL. pose proof (rc_at _ _ _ _ _ LG) as VA. constructor.
  - apply (rc_len _ _ _ _ _ LG).
  - intros i j Hi Hj s. assert (s <= n)%nat as Hs by (unfold s; rewrite stage_tr; cbn in Hj; lia). destruct (VA s Hs) as (V1 & V2 & V3 & V4 & V5 & V6 & V7).
    exists (s_T k), (sv (s_v k s) (s_x k s) (s_y k s)), (th_of (s_th k s)). eexists. eexists. split; [apply (rc_T _ _ _ _ _ LG)|]. split; [|split; [|split; [apply time_fwd|split; [|split]]]].
    + split; [reflexivity|]. intros nm v Hv. apply dget_in in Hv. cbn in Hv. repeat (destruct Hv as [Hv|Hv]; [injection Hv as <- <-; assumption|]). contradiction.
    + split; [reflexivity|]. intros nm v Hv. apply dget_in in Hv. cbn in Hv. repeat (destruct Hv as [Hv|Hv]; [injection Hv as <- <-; assumption|]). contradiction.
    + intros nm H. cbn in H. repeat (destruct H as [<-|H]; [eexists; split; [reflexivity|assumption]|]). contradiction.
    + intros nm [].
    + intros nm [].
  - intros i kk nm Hi Hkk Hnm. cbn in Hnm. destruct FL as [F1 F2 F3 _ _ _ _].
    destruct Hnm as [<-|[<-|[<-|[]]]].
    + apply (steps_iff x k "v" (s_v k) (fun s => - g * sin (s_th k s)) LG); [cbn; tauto| |exact F1|exact Hi|exact Hkk]. intros s Hs. specialize (VA s Hs). tauto.
    + apply (steps_iff x k "x" (s_x k) (fun s => cos (s_th k s) * s_v k s) LG); [cbn; tauto| |exact F2|exact Hi|exact Hkk]. intros s Hs. specialize (VA s Hs). tauto.
    + apply (steps_iff x k "y" (s_y k) (fun s => sin (s_th k s) * s_v k s) LG); [cbn; tauto| |exact F3|exact Hi|exact Hkk]. intros s Hs. specialize (VA s Hs). tauto.
  - discriminate.
  - intros gr nm s HK Hs. cbn in Hs. assert (s <= n)%nat as Hs' by lia. destruct (VA s Hs') as (V1 & V2 & V3 & V4 & V5 & V6 & V7).
    pose proof (sl_slope _ _ _ _ _ _ FL s Hs') as W1. pose proof (sl_start _ _ _ _ _ _ FL) as ST. pose proof (sl_end _ _ _ _ _ _ FL) as EN. destruct HK as [[[-> | ->] Hnm]|[[-> Hnm]|[[-> Hnm]|(-> & _ & ->)]]].
    + assert (exists v, val o x "states" nm s v /\ (s = 0%nat -> v = 0) /\ (s = n -> forall w, finish dx dy nm = Some w -> v = w)) as (v & V & Q2 & Q3).
      { cbn in Hnm. destruct Hnm as [<-|[<-|[<-|[]]]]; eexists; (split; [eassumption|]); unfold finish; cbn [String.eqb Ascii.eqb Bool.eqb]; (split; [intros ->; tauto|intros -> w Hw; try discriminate; injection Hw as <-; tauto]). }
      exists v. split; [exact V|]. unfold B, C. rewrite (exp_st _ _ dx dy NS nm s Hnm Hs').
      destruct (Nat.eqb_spec s n) as [E1|N1].
      * specialize (Q3 E1). destruct (finish dx dy nm) as [w|]; [rewrite (Q3 w eq_refl); cbn [fst snd ele ege]; lra|]. destruct (Nat.eqb_spec s 0) as [E0|N0]; cbn [fst snd ele ege]; [lia|auto].
      * destruct (Nat.eqb_spec s 0) as [E0|N0]; cbn [fst snd ele ege]; [rewrite (Q2 E0); lra|auto].
    + unfold B, C. rewrite (exp_sd _ dx dy nm s Hnm). cbn in Hnm. destruct Hnm as [<-|[<-|[<-|[]]]]; eexists; (split; [eassumption|]); split; exact I.
    + cbn in Hnm. unfold B, C. destruct Hnm as [<-|[]]; eexists; (split; [eassumption|]); rewrite exp_th; cbn [fst snd ele ege]; lra.
    + destruct Hnm.
    + unfold B, C. rewrite exp_ms. exists (s_T k). split; [pose proof (rc_T _ _ _ _ _ LG) as V; exact V|]. pose proof (sl_time _ _ _ _ _ _ FL). cbn [fst snd ele ege]. lra.
Qed.
End Slides.
