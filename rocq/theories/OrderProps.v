(** C61: refining the mesh - the trajectories that the solver is given converge to the motions of the model, with the order of the transcription. *)
From Verif Require Import Base RBase UtilsModel UtilsProofs UtilsProofs2 IoProps CollocModel CollocProofs CollocProps OcpModel OcpSpec BoundSpec BuildModel BuildSpec OrderSpec OrderProofs OrderProofs2.
From Coq Require Import Lra.
Open Scope R_scope.

Lemma carry_names : forall names (f : string -> R), exists d, carries names f d.
Proof.
  intros names f. exists (map (fun nm => (nm, f nm)) names). split; [unfold keys; rewrite map_map; apply map_id|].
  intros nm v. induction names as [|a names IH]; [discriminate|]. cbn [map dget]. destruct (String.eqb_spec nm a) as [->|N]; [|exact IH]. intro E. now inversion E.
Qed.
Lemma dget_keys : forall (d : dict R) nm, In nm (keys d) -> exists v, dget nm d = Some v.
Proof.
  intros d nm H. induction d as [|[a v] d IH]; [destruct H|]. cbn [dget]. destruct (String.eqb_spec nm a) as [->|N]; [now exists v|]. apply IH. cbn in H. destruct H as [H|H]; [congruence|exact H].
Qed.
Lemma dget_in_keys : forall (d : dict R) nm v, dget nm d = Some v -> In nm (keys d).
Proof. intros d nm v H. induction d as [|[a w] d IH]; [discriminate|]. cbn [dget] in H. destruct (String.eqb_spec nm a) as [->|N]; [now left|]. right. now apply IH. Qed.

(** For every transcription there is a constant [C] such that, whatever the model, the mesh and the problem: a trajectory that starts within [e0] of a motion
    of the model and has the motion's inputs at the stages is within exp (C K T) (e0 + C T M h^q) of the motion at every stage, where [h] is the longest
    step, [T] the length of the mesh, [K] the Lipschitz constant of the model, [q] the order and [M] a bound on the (q+1)-st derivatives of the motion. *)
Theorem C61_converges : forall roots name ns t, oracle_ok roots ns -> make_transcription roots name ns = Ok t ->
  exists C, 0 < C /\ forall o st inp con res fwd n pts fixed cyclic bounds bcs x L h G K M e0 u Y,
    let at_ i j := (nth i pts 0 + unit_point t j * interval_length pts i) * L in
    let lo := nth 0 pts 0 * L in let hi := nth n pts 0 * L in let q := order_of name (t_stages t) in
    trajectory o st inp con res fwd t n pts fixed cyclic bounds bcs x -> mesh_length o fixed x L ->
    (forall i, (i < n)%nat -> 0 < interval_length pts i * L <= h) ->
    motion st inp fwd G lo hi q M u Y -> lipschitz st fwd G K ->
    (forall i j nm v, (i < n)%nat -> (j < t_stages t)%nat -> In nm inp -> val o x "inputs" nm (stage_of t i j) v -> v = u nm (at_ i j)) ->
    (forall i j ds di, (i < n)%nat -> (j < t_stages t)%nat -> holds o x "states" st (stage_of t i j) ds -> holds o x "inputs" inp (stage_of t i j) di -> G ds di (at_ i j)) ->
    (forall nm v, In nm st -> val o x "states" nm 0 v -> Rabs (v - Y nm 0%nat lo) <= e0) ->
    0 <= h -> 0 <= M -> 0 <= K -> 0 <= e0 -> C * K * h <= 1 ->
    forall i j nm, (i < n)%nat -> (j < t_stages t)%nat -> In nm st ->
      exists v, val o x "states" nm (stage_of t i j) v /\ Rabs (v - Y nm 0%nat (at_ i j)) <= exp (C * K * (hi - lo)) * (e0 + C * (hi - lo) * M * h ^ q).
Proof.
  intros roots name ns t HO HT. destruct (every_scheme roots name ns t HO HT) as (a & A & HA & SC & SV). exists (2 * (1 + A)). split; [lra|].
  intros o st inp con res fwd n pts fixed cyclic bounds bcs x L h G K M e0 u Y at_ lo hi q TJ HL Hstep MO LI HU HG H0 Hh HM HK He Hs i0 j0 nm0 Hi0 Hj0 Hnm0.
  destruct MO as [MM MS MB]. pose proof (sc_m _ _ _ _ _ SC) as Hm. set (m := t_stages t) in *.
  set (X := fun nm s => match get_var (oc_op o) x "states" nm (Z.of_nat s) with Ok v => v | Raise _ => 0 end).
  set (D := fun nm s => match get_var (oc_op o) x "states_dot" nm (Z.of_nat s) with Ok v => v | Raise _ => 0 end).
  assert (forall nm s v, val o x "states" nm s v -> X nm s = v) as VX by (intros nm s v Hv; unfold X; unfold val, value_at in Hv; now rewrite Hv).
  assert (forall nm s v, val o x "states_dot" nm s v -> D nm s = v) as VD by (intros nm s v Hv; unfold D; unfold val, value_at in Hv; now rewrite Hv).
  assert (forall L', mesh_length o fixed x L' -> L' = L) as LF. { intros L' HL'. unfold mesh_length, val, value_at in HL, HL'. destruct fixed; congruence. }
  assert (forall i j nm, (i < n)%nat -> (j < m)%nat -> In nm st -> val o x "states" nm (stage_of t i j) (X nm (stage_of t i j))) as XV.
  { intros i j nm Hi Hj Hnm. destruct (tj_model _ _ _ _ _ _ _ _ _ _ _ _ _ _ TJ i j Hi Hj) as (L' & ds & di & sd & out & _ & [K1 K2] & _). rewrite <- K1 in Hnm. destruct (dget_keys ds nm Hnm) as (v & Hv). rewrite (VX _ _ _ (K2 _ _ Hv)). now apply K2. }
  set (tau := fun i => nth i pts 0 * L).
  assert (forall i, tau (S i) - tau i = interval_length pts i * L) as ET by (intro i; unfold tau, interval_length; ring).
  assert (forall i j, at_ i j = tau i + unit_point t j * (tau (S i) - tau i)) as EA by (intros i j; rewrite ET; unfold at_, tau; ring).
  assert (forall i, (i < n)%nat -> 0 < tau (S i) - tau i <= h) as HT' by (intros i Hi; rewrite ET; now apply Hstep).
  assert (forall k i, (i + k <= n)%nat -> tau i <= tau (i + k)%nat) as TM. { induction k as [|k IH]; intros i Hi; [rewrite Nat.add_0_r; lra|]. specialize (HT' (i + k)%nat ltac:(lia)). specialize (IH i ltac:(lia)). rewrite Nat.add_succ_r. lra. }
  assert (forall i, (i <= n)%nat -> lo <= tau i) as T0. { intros i Hi. change lo with (tau 0%nat). replace i with (0 + i)%nat by lia. apply TM. lia. }
  assert (forall i, (i <= n)%nat -> tau i <= hi) as T1. { intros i Hi. change hi with (tau n). replace n with (i + (n - i))%nat by lia. apply TM. lia. }
  assert (forall i j, (i < n)%nat -> (j < m)%nat -> lo <= at_ i j <= hi) as AR.
  { intros i j Hi Hj. rewrite EA. pose proof (HT' i Hi) as P. pose proof (sc_unit _ _ _ _ _ SC j Hj) as U. pose proof (T0 i ltac:(lia)). pose proof (T1 (S i) ltac:(lia)). set (d := tau (S i) - tau i) in *.
    assert (0 <= unit_point t j * d) by (apply Rmult_le_pos; lra). assert (unit_point t j * d <= 1 * d) by (apply Rmult_le_compat_r; lra). unfold d in *. lra. }
  pose proof (all_intervals st m q (unit_point t) a A SC HA n tau X D Y h M K e0 HM HK He Hh) as AI. specialize (AI ltac:(replace (h * A * K) with (A * K * h) by ring; assert (0 <= K * h) by (now apply Rmult_le_pos); replace (2 * (1 + A) * K * h) with (2 * (K * h) + 2 * (A * K * h)) in Hs by ring; lra) HT').
  exists (X nm0 (stage_of t i0 j0)). split; [now apply XV|]. rewrite EA. eapply Rle_trans; [apply AI; clear AI|]; try assumption.
  - (* continuity *) intros i nm j Hi Hnm Hj. assert (X nm (stage_of t i j) = X nm (stage_of t i 0) + (tau (S i) - tau i) * rsum (map (fun k => a j k * D nm (stage_of t i k)) (seq 0 m))) as Q; [|unfold stage_of in Q; fold m in Q; rewrite Nat.add_0_r in Q; exact Q].
    apply (SV (fun j => X nm (stage_of t i j)) (fun j => D nm (stage_of t i j)) (tau (S i) - tau i)); [|exact Hj].
    intros k Hk. destruct (tj_continuity _ _ _ _ _ _ _ _ _ _ _ _ _ _ TJ i k nm Hi Hk Hnm) as (L' & X' & D' & ML & VV & EQ). rewrite (LF _ ML) in EQ. rewrite ET.
    rewrite (rsum_ext _ _ (fun j => entry k j (t_A t) * X' j)), (rsum_ext _ (fun j => entry k j (t_B t) * D nm (stage_of t i j)) (fun j => entry k j (t_B t) * D' j)); [exact EQ| |].
    + intros j' Hj'. apply in_seq in Hj'. now rewrite (VD _ _ _ (proj2 (VV j' ltac:(lia)))).
    + intros j' Hj'. apply in_seq in Hj'. now rewrite (VX _ _ _ (proj1 (VV j' ltac:(lia)))).
  - (* the model *) intros i j E Hi Hj HE nm Hnm. change (i * (m - 1) + j)%nat with (stage_of t i j) in *. rewrite <- EA in *.
    destruct (tj_model _ _ _ _ _ _ _ _ _ _ _ _ _ _ TJ i j Hi Hj) as (L' & ds & di & sd & out & ML & HS & HI & EF & HD & _). rewrite (LF _ ML) in EF. fold (at_ i j) in EF.
    destruct (carry_names st (fun nm => Y nm 0%nat (at_ i j))) as (ds' & CS).
    assert (carries inp (fun nm => u nm (at_ i j)) di) as CI. { split; [apply HI|]. intros nm' v Hv. apply (HU i j nm' v Hi Hj); [rewrite <- (proj1 HI); eapply dget_in_keys; exact Hv|now apply HI]. }
    destruct (MM (at_ i j) ds' di (AR i j Hi Hj) CS CI) as (G' & sd' & out' & EF' & HD'). destruct (HD nm Hnm) as (w & W1 & W2). rewrite (VD _ _ _ W2).
    apply (LI ds ds' di (at_ i j) sd out sd' out' E (HG i j ds di Hi Hj HS HI) G' EF EF') with (nm := nm); [|exact Hnm|exact W1|now apply HD'].
    intros nm' v v' Hn' Hv Hv'. rewrite (proj2 CS _ _ Hv'). rewrite <- (VX _ _ _ (proj2 HS _ _ Hv)). now apply HE.
  - (* start *) intros nm Hnm. change (tau 0%nat) with lo. apply H0; [exact Hnm|]. assert (stage_of t 0 0 = 0%nat) as <- by reflexivity. apply XV; [lia|lia|exact Hnm].
  - pose proof (HT' i0 Hi0). pose proof (T0 i0 ltac:(lia)). pose proof (T1 (S i0) ltac:(lia)). change (tau 0%nat) with lo. assert (tau (S i0) - lo <= hi - lo) as W by lra. assert (0 <= tau (S i0) - lo) as W0 by lra.
    assert (0 <= h ^ q) as Hq by (now apply pow_le). assert (0 <= M * h ^ q) as HMq by (now apply Rmult_le_pos). assert (0 <= A * K) as HAK by (now apply Rmult_le_pos).
    apply Rmult_le_compat.
    + left. apply exp_pos.
    + assert (0 <= 2 * (1 + A) * M * h ^ q * (tau (S i0) - lo)); [|lra]. repeat apply Rmult_le_pos; lra.
    + assert (2 * A * K * (tau (S i0) - lo) <= 2 * (1 + A) * K * (hi - lo)) as [Q|Q].
      { apply Rle_trans with (2 * A * K * (hi - lo)); [apply Rmult_le_compat_l; lra|]. apply Rmult_le_compat_r; lra. }
      * left. now apply exp_increasing.
      * rewrite Q. lra.
    + apply Rplus_le_compat_l. replace (2 * (1 + A) * M * h ^ q * (tau (S i0) - lo)) with (2 * (1 + A) * (M * h ^ q) * (tau (S i0) - lo)) by ring. replace (2 * (1 + A) * (hi - lo) * M * h ^ q) with (2 * (1 + A) * (M * h ^ q) * (hi - lo)) by ring. apply Rmult_le_compat_l; [apply Rmult_le_pos; lra|exact W].
Qed.
Print Assumptions C61_converges.
