(** Every transcription is a scheme of the order the specification gives. *)
From Verif Require Import Base RBase UtilsModel CollocModel CollocProofs CollocProofs2 CollocProps OcpSpec BuildSpec OrderSpec OrderProofs.

Lemma rsum_nonneg : forall X (f : X -> R) l, (forall a, In a l -> 0 <= f a) -> 0 <= rsum (map f l).
Proof. intros X f l H. induction l as [|a l IH]; cbn [map rsum]; [lra|]. pose proof (H a (or_introl eq_refl)). specialize (IH ltac:(intros b Hb; apply H; now right)). lra. Qed.
Lemma rsum_member : forall X (f : X -> R) l a, (forall a, In a l -> 0 <= f a) -> In a l -> f a <= rsum (map f l).
Proof.
  intros X f l a H Ha. induction l as [|b l IH]; [destruct Ha|]. cbn [map rsum]. assert (0 <= rsum (map f l)) by (apply rsum_nonneg; intros; apply H; now right).
  pose proof (H b (or_introl eq_refl)). destruct Ha as [<-|Ha]; [lra|]. specialize (IH ltac:(intros; apply H; now right) Ha). lra.
Qed.
Lemma weights_bounded : forall m (a : nat -> nat -> R), exists A, 0 <= A /\ forall j, (j < m)%nat -> rsum (map (fun k => Rabs (a j k)) (seq 0 m)) <= A.
Proof.
  intros m a. exists (rsum (map (fun j => rsum (map (fun k => Rabs (a j k)) (seq 0 m))) (seq 0 m))).
  assert (forall j, 0 <= rsum (map (fun k => Rabs (a j k)) (seq 0 m))) as P by (intro; apply rsum_nonneg; intros; apply Rabs_pos).
  split; [apply rsum_nonneg; intros; apply P|]. intros j Hj. apply (rsum_member _ (fun j => rsum (map (fun k => Rabs (a j k)) (seq 0 m)))); [intros; apply P|apply in_seq; lia].
Qed.
Lemma rsum_split : forall (f : nat -> R) m, rsum (map f (seq 0 (S m))) = f 0%nat + rsum (map (fun k => f (S k)) (seq 0 m)).
Proof. intros f m. cbn [seq map rsum]. rewrite <- seq_shift, map_map. reflexivity. Qed.

(** the stage values a transcription determines from the derivatives *)
Definition solves (t : transcription) (a : nat -> nat -> R) : Prop :=
  forall (X D : nat -> R) h, (forall k, (k < t_stages t - 1)%nat -> rsum (map (fun j => entry k j (t_A t) * X j) (seq 0 (t_stages t))) = h * rsum (map (fun j => entry k j (t_B t) * D j) (seq 0 (t_stages t)))) ->
    forall j, (j < t_stages t)%nat -> X j = X 0%nat + h * rsum (map (fun k => a j k * D k) (seq 0 (t_stages t))).
Definition is_scheme (t : transcription) (q : nat) : Prop := exists a A, 0 <= A /\ scheme (t_stages t) q (unit_point t) a A /\ solves t a.

Lemma euler_scheme : is_scheme forward_euler 1.
Proof.
  exists (fun j k => match j, k with 1%nat, 0%nat => 1 | _, _ => 0 end), 1. split; [lra|]. split.
  - constructor; try reflexivity; try (cbn; lia).
    + intros j Hj. cbn in Hj. destruct j as [|[|j]]; [cbn; lra|cbn; lra|lia].
    + intros j p F Hj Lp HF. cbn in Hj. destruct p as [|b [|? ?]]; [| |cbn in Lp; lia].
      * assert (F (unit_point forward_euler j) - F 0 = 0) as ->. { rewrite (same_deriv_same_incr F (fun _ => 0) (peval []) HF ltac:(intro; apply derivable_pt_lim_const)). ring. }
        destruct j as [|[|j]]; [cbn; ring|cbn; ring|lia].
      * rewrite (same_deriv_same_incr F (fun u => b * u) (peval [b]) HF).
        2:{ intro u. cbn [peval]. eapply dlim_eq; [|apply derivable_pt_lim_scal, derivable_pt_lim_id]. ring. }
        destruct j as [|[|j]]; [cbn; ring|cbn; ring|lia].
    + intros j Hj. cbn in Hj. destruct j as [|[|j]]; [|..]; [cbn; rewrite Rabs_R0; lra|cbn; rewrite Rabs_R0, Rabs_R1; lra|lia].
  - intros X D h H j Hj. specialize (H 0%nat ltac:(cbn; lia)). cbn in H, Hj. destruct j as [|[|j]]; [cbn; ring|cbn; lra|lia].
Qed.
Lemma trapezoidal_scheme : is_scheme trapezoidal 2.
Proof.
  exists (fun j k => match j with 1%nat => 1 / 2 | _ => 0 end), 1. split; [lra|]. split.
  - constructor; try reflexivity; try (cbn; lia).
    + intros j Hj. cbn in Hj. destruct j as [|[|j]]; [cbn; lra|cbn; lra|lia].
    + intros j p F Hj Lp HF. cbn in Hj. rewrite (same_deriv_same_incr F (peval (pinteg p)) (peval p) HF (pinteg_deriv p)).
      destruct p as [|b [|b2 [|? ?]]]; [| | |cbn in Lp; lia]; (destruct j as [|[|j]]; [cbn; lra|cbn; lra|lia]).
    + intros j Hj. cbn in Hj. destruct j as [|[|j]]; [cbn; rewrite Rabs_R0; lra|cbn; rewrite Rabs_right; lra|lia].
  - intros X D h H j Hj. specialize (H 0%nat ltac:(cbn; lia)). cbn in H, Hj. destruct j as [|[|j]]; [cbn; ring|cbn; lra|lia].
Qed.
Lemma unit_points : forall t cl j, t_points t = 0 :: cl -> unit_point t j = vget j (0 :: cl).
Proof. intros t cl j E. unfold unit_point, vget. now rewrite E. Qed.
Lemma diag_entry : forall n m k (w : nat -> R), (k < n)%nat -> (S k < m)%nat -> rsum (map (fun j => entry k j (diags [(1, 1%nat)] n m) * w j) (seq 0 m)) = w (S k).
Proof.
  intros n m k w Hk Hm. rewrite (rsum_single _ (S k)); [|lia|].
  - unfold entry, diags. rewrite (nth_map_in _ _ _ _ _ _ 0%nat) by (now rewrite seq_length). rewrite (nth_map_in _ _ _ _ _ _ 0%nat) by (now rewrite seq_length). rewrite !seq_nth by lia. cbn [map rsum fst snd]. replace (Nat.eqb (0 + S k) (0 + k + 1)) with true by (symmetry; apply Nat.eqb_eq; lia). ring.
  - intros j Hj. destruct (Nat.lt_ge_cases j m) as [Hjm|Hjm].
    + unfold entry, diags. rewrite (nth_map_in _ _ _ _ _ _ 0%nat) by (now rewrite seq_length). rewrite (nth_map_in _ _ _ _ _ _ 0%nat) by (now rewrite seq_length). rewrite !seq_nth by lia. cbn [map rsum fst snd]. replace (Nat.eqb (0 + j) (0 + k + 1)) with false by (symmetry; apply Nat.eqb_neq; lia). ring.
    + unfold entry, diags. rewrite (nth_map_in _ _ _ _ _ _ 0%nat) by (now rewrite seq_length). rewrite nth_overflow by (rewrite map_length, seq_length; lia). ring.
Qed.
Lemma points_facts : forall cl m, List.length cl = (m - 1)%nat -> (2 <= m)%nat -> last (0 :: cl) 0 = 1 -> Forall (fun p => 0 <= p <= 1) (0 :: cl) ->
  vget (m - 1) (0 :: cl) = 1 /\ forall j, (j < m)%nat -> 0 <= vget j (0 :: cl) <= 1.
Proof.
  intros cl m L Hm La F. split.
  - destruct (exists_last (l := cl)) as (p & z & E); [intro C; subst; cbn in L; lia|]. subst cl. rewrite app_length in L. cbn in L. change (0 :: p ++ [z]) with ((0 :: p) ++ [z]) in *. rewrite last_last in La. subst z.
    unfold vget. rewrite app_nth2 by (cbn; lia). replace (m - 1 - List.length (0%R :: p))%nat with 0%nat by (cbn; lia). reflexivity.
  - intros j Hj. rewrite Forall_forall in F. apply F. unfold vget. apply nth_In. cbn. lia.
Qed.
Lemma interp_incr : forall x p F c, NoDup x -> (List.length p <= List.length x)%nat -> (forall u, derivable_pt_lim F u (peval p u)) ->
  F c - F 0 = rsum (map (fun k => (peval (pinteg (make_lagrange_polynomial x k)) c - peval (pinteg (make_lagrange_polynomial x k)) 0) * peval p (vget k x)) (seq 0 (List.length x))).
Proof.
  intros x p F c Hx Lp HF. pose (G := fun t => rsum (map (fun j => peval p (vget j x) * peval (pinteg (make_lagrange_polynomial x j)) t) (seq 0 (List.length x)))).
  rewrite (same_deriv_same_incr F G (peval p) HF).
  - unfold G. rewrite <- rsum_minus. apply rsum_ext. intros; ring.
  - intro t. rewrite <- (interp_exact x p Hx Lp t). apply (dlim_sum _ (fun j t => peval p (vget j x) * peval (pinteg (make_lagrange_polynomial x j)) t)). intros j _. apply dlim_scal, pinteg_deriv.
Qed.
Lemma lgr_scheme : forall roots m t, (2 <= m)%nat -> roots_correct roots (lgr_coef (m - 1)) -> lgr roots m = Ok t -> is_scheme t (m - 1) /\ t_stages t = m.
Proof.
  intros roots m t Hm HR Ht. destruct (lgr_ok roots m Hm HR) as (t' & cl & E & Ep & Lc & Es & En & EA & EB & HS & La & F). rewrite Ht in E. assert (t' = t) by (now inversion E). subst t'. clear E. split; [|exact Es].
  assert (NoDup (0 :: cl)) as ND by (now apply sorted_NoDup). assert (NoDup cl) as NDc by (now inversion ND). destruct (points_facts cl m Lc Hm La F) as [P1 P2].
  set (a := fun j k => match k with 0%nat => 0 | S k => peval (pinteg (make_lagrange_polynomial cl k)) (vget j (0 :: cl)) - peval (pinteg (make_lagrange_polynomial cl k)) 0 end).
  destruct (weights_bounded m a) as (A & HA & BA). exists a, A. split; [exact HA|]. rewrite Es.
  assert (forall p FF j, (List.length p <= m - 1)%nat -> (forall u, derivable_pt_lim FF u (peval p u)) -> FF (vget j (0 :: cl)) - FF 0 = rsum (map (fun k => a j k * peval p (vget k (0 :: cl))) (seq 0 m))) as EX.
  { intros p FF j Lp HF. rewrite (interp_incr cl p FF (vget j (0 :: cl)) NDc ltac:(lia) HF). replace m with (S (m - 1)) at 1 by lia. rewrite rsum_split, Lc. cbn [a]. rewrite Rmult_0_l, Rplus_0_l. reflexivity. }
  split.
  - constructor; try lia.
    + now rewrite (unit_points t cl) by exact Ep.
    + rewrite (unit_points t cl) by exact Ep. exact P1.
    + intros j Hj. rewrite (unit_points t cl) by exact Ep. now apply P2.
    + intros j p FF Hj Lp HF. rewrite (unit_points t cl) by exact Ep. rewrite (EX p FF j Lp HF). apply rsum_ext. intros k _. now rewrite (unit_points t cl) by exact Ep.
    + exact BA.
  - intros X D h H j Hj. rewrite Es in *. rewrite EA, EB in H.
    set (v := map X (seq 0 m)). assert (forall j, (j < m)%nat -> vget j v = X j) as Hv. { intros i Hi. unfold v, vget. rewrite (nth_map_in _ _ _ _ _ _ 0%nat) by (now rewrite seq_length). now rewrite seq_nth by lia. }
    set (P := combo (0 :: cl) v). assert (List.length (0 :: cl) = m) as Lp by (cbn; lia).
    assert (forall i, (i < m)%nat -> peval P (vget i (0 :: cl)) = X i) as HP by (intros i Hi; unfold P; rewrite combo_interp by (auto; lia); now apply Hv).
    assert (forall k, (k < m - 1)%nat -> peval (pdiff P) (vget k cl) = h * D (S k)) as HD.
    { intros k Hk. specialize (H k Hk). rewrite diag_entry in H by lia. rewrite <- H. pose proof (diffm_interp (0 :: cl) cl X k ltac:(lia)) as Q. rewrite Lp in Q.
      eapply dlim_unique; [apply peval_deriv|]. eapply dlim_ext; [|exact Q]. intro u. unfold P. rewrite combo_eval, Lp. apply rsum_ext. intros i Hi. apply in_seq in Hi. rewrite Hv by lia. reflexivity. }
    assert (List.length (pdiff P) <= m - 1)%nat as LD. { rewrite pdiff_length. pose proof (combo_len (0 :: cl) v ltac:(discriminate)). fold P in H0. lia. }
    pose proof (EX (pdiff P) (peval P) j LD (peval_deriv P)) as Q. rewrite (HP j Hj) in Q. rewrite <- (HP 0%nat ltac:(lia)). change (vget 0 (0 :: cl)) with 0.
    replace (h * rsum (map (fun k => a j k * D k) (seq 0 m))) with (X j - peval P 0); [ring|]. rewrite Q, <- rsum_mult_l. apply rsum_ext. intros k Hk. apply in_seq in Hk. destruct k as [|k]; [cbn [a]; ring|]. change (vget (S k) (0 :: cl)) with (vget k cl). rewrite HD by lia. ring.
Qed.
Lemma lgr_integral_scheme : forall roots m t, (2 <= m)%nat -> roots_correct roots (lgr_coef (m - 1)) -> lgr_integral roots m = Ok t -> is_scheme t m /\ t_stages t = m.
Proof.
  intros roots m t Hm HR Ht. destruct (lgr_ok roots m Hm HR) as (t' & cl & E & Ep & Lc & Es & En & EA & EB & HS & La & F). unfold lgr_integral in Ht. rewrite E in Ht. cbn [bind] in Ht. rewrite Ep in Ht. cbn [tl] in Ht.
  assert (forall T (x y : T), Ok x = Ok y -> x = y) as OI by (intros T x y Q; now inversion Q). apply OI in Ht.
  assert (t_points t = 0 :: cl) as Ep' by (now rewrite <- Ht). assert (t_stages t = m) as Es' by (now rewrite <- Ht). split; [|exact Es'].
  assert (t_B t = build_lagrange_integration_matrix (0 :: cl) cl) as EB' by (now rewrite <- Ht).
  assert (t_A t = map (fun i => -1 :: map (fun j => if Nat.eqb i j then 1 else 0) (seq 0 (m - 1))) (seq 0 (m - 1))) as EA' by (now rewrite <- Ht). clear Ht.
  assert (NoDup (0 :: cl)) as ND by (now apply sorted_NoDup). destruct (points_facts cl m Lc Hm La F) as [P1 P2]. assert (List.length (0 :: cl) = m) as Lp by (cbn; lia).
  set (a := fun j k => match j with 0%nat => 0 | S j => mget j k (build_lagrange_integration_matrix (0 :: cl) cl) end).
  destruct (weights_bounded m a) as (A & HA & BA). exists a, A. split; [exact HA|]. rewrite Es'. split.
  - constructor; try lia.
    + now rewrite (unit_points t cl) by exact Ep'.
    + rewrite (unit_points t cl) by exact Ep'. exact P1.
    + intros j Hj. rewrite (unit_points t cl) by exact Ep'. now apply P2.
    + intros j p FF Hj L HF. rewrite (unit_points t cl) by exact Ep'. destruct j as [|j].
      * change (vget 0 (0 :: cl)) with 0. cbn [a]. rewrite (rsum_ext _ _ (fun _ => 0 * 0)) by (intros; ring). rewrite rsum_mult_l. ring.
      * change (vget (S j) (0 :: cl)) with (vget j cl). cbn [a].
        pose proof (intm_interp (0 :: cl) cl (fun k => peval p (vget k (0 :: cl))) j FF ltac:(lia)) as Q. rewrite Lp in Q. change (vget 0 (0 :: cl)) with 0 in Q.
        rewrite <- Q; [apply rsum_ext; intros k _; now rewrite (unit_points t cl) by exact Ep'|]. intro u. rewrite <- Lp. rewrite (interp_exact (0 :: cl) p ND ltac:(lia)). apply HF.
    + exact BA.
  - intros X D h H j Hj. rewrite Es' in *. rewrite EA', EB' in H. destruct j as [|j].
    + cbn [a]. rewrite (rsum_ext _ _ (fun _ => 0 * 0)) by (intros; ring). rewrite rsum_mult_l. ring.
    + specialize (H j ltac:(lia)). cbn [a]. replace (rsum (map (fun k => mget j k (build_lagrange_integration_matrix (0 :: cl) cl) * D k) (seq 0 m))) with (rsum (map (fun k => entry j k (build_lagrange_integration_matrix (0 :: cl) cl) * D k) (seq 0 m))) by reflexivity.
      rewrite <- H. assert (forall f : nat -> R, rsum (map f (seq 0 m)) = f 0%nat + rsum (map (fun k => f (S k)) (seq 0 (m - 1)))) as SP by (intro f; rewrite <- rsum_split; f_equal; f_equal; f_equal; lia). rewrite SP. unfold entry. rewrite (nth_map_in _ _ _ _ _ _ 0%nat) by (rewrite seq_length; lia). rewrite seq_nth by lia. cbn [nth Nat.add].
      rewrite (rsum_single _ j); [|lia|].
      * rewrite (nth_map_in _ _ _ _ _ _ 0%nat) by (rewrite seq_length; lia). rewrite seq_nth by lia. cbn [Nat.add]. rewrite Nat.eqb_refl. ring.
      * intros k Hk. destruct (Nat.lt_ge_cases k (m - 1)) as [Hl|Hl].
        -- rewrite (nth_map_in _ _ _ _ _ _ 0%nat) by (rewrite seq_length; lia). rewrite seq_nth by lia. cbn [Nat.add]. destruct (Nat.eqb_spec j k); [lia|ring].
        -- rewrite nth_overflow by (rewrite map_length, seq_length; lia). ring.
Qed.
Lemma every_scheme : forall roots name ns t, oracle_ok roots ns -> make_transcription roots name ns = Ok t -> is_scheme t (order_of name (t_stages t)).
Proof.
  intros roots name ns t HO HT. destruct (proj2 (C22_make roots name ns) t HT) as [(-> & _ & ->)|[(-> & _ & ->)|[(-> & E)|(-> & E)]]].
  - exact euler_scheme.
  - exact trapezoidal_scheme.
  - set (m := match ns with None => 3%nat | Some n => n end) in *. assert (2 <= m)%nat as Hm. { destruct (Nat.lt_ge_cases m 2) as [L|G]; [exfalso|exact G]. destruct (C21_stage_points roots m) as [Q _]. rewrite (proj1 (Q L)) in E. discriminate. }
    assert (roots_correct roots (lgr_coef (m - 1))) as HR by (unfold oracle_ok in HO; unfold m; destruct ns; exact HO).
    destruct (lgr_scheme roots m t Hm HR E) as [Q S1]. rewrite S1. exact Q.
  - set (m := match ns with None => 3%nat | Some n => n end) in *. assert (2 <= m)%nat as Hm. { destruct (Nat.lt_ge_cases m 2) as [L|G]; [exfalso|exact G]. destruct (C21_stage_points roots m) as [Q _]. rewrite (proj2 (Q L)) in E. discriminate. }
    assert (roots_correct roots (lgr_coef (m - 1))) as HR by (unfold oracle_ok in HO; unfold m; destruct ns; exact HO).
    destruct (lgr_integral_scheme roots m t Hm HR E) as [Q S1]. rewrite S1. exact Q.
Qed.
