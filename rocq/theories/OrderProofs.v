(** Accuracy of one-step collocation schemes: Taylor, local error, propagation. *)
From Verif Require Import Base RBase CollocModel CollocProofs.
Import ListNotations.

(** ** Taylor's formula with a crude remainder *)
Lemma grow : forall f f' h M k, 0 <= M -> f 0 = 0 -> (forall s, 0 <= s <= h -> derivable_pt_lim f s (f' s)) -> (forall s, 0 <= s <= h -> Rabs (f' s) <= M * s ^ k) ->
  forall s, 0 <= s <= h -> Rabs (f s) <= M * s ^ S k.
Proof.
  intros f f' h M k HM H0 D B s Hs. destruct (Req_dec s 0) as [->|N].
  - rewrite H0, Rabs_R0. cbn [pow]. lra.
  - destruct (MVT_cor2 f f' 0 s ltac:(lra) ltac:(intros c Hc; apply D; lra)) as (c & E & Hc). rewrite H0, !Rminus_0_r in E. rewrite E, Rabs_mult, (Rabs_right s) by lra.
    specialize (B c ltac:(lra)). cbn [pow]. assert (c ^ k <= s ^ k) as P by (apply pow_incr; lra). assert (0 <= c ^ k) by (apply pow_le; lra).
    apply Rle_trans with (M * c ^ k * s); [apply Rmult_le_compat_r; lra|]. replace (M * (s * s ^ k)) with (M * s ^ k * s) by ring. apply Rmult_le_compat_r; [lra|]. apply Rmult_le_compat_l; assumption.
Qed.
Lemma shift_deriv : forall F t0 s d, derivable_pt_lim F (t0 + s) d -> derivable_pt_lim (fun u => F (t0 + u)) s d.
Proof. intros F t0 s d D eps He. destruct (D eps He) as [del Hd]. exists del. intros x Hx Hl. replace (t0 + (s + x)) with (t0 + s + x) by ring. now apply Hd. Qed.
Lemma taylor : forall q (Y : nat -> R -> R) t0 h M, 0 <= h -> 0 <= M -> (forall k s, (k <= q)%nat -> t0 <= s <= t0 + h -> derivable_pt_lim (Y k) s (Y (S k) s)) ->
  (forall s, t0 <= s <= t0 + h -> Rabs (Y (S q) s) <= M) ->
  exists T, List.length T = S q /\ forall s, 0 <= s <= h -> Rabs (Y 0%nat (t0 + s) - peval T s) <= M * s ^ S q /\ Rabs (Y 1%nat (t0 + s) - peval (pdiff T) s) <= M * s ^ q.
Proof.
  induction q as [|q IH]; intros Y t0 h M Hh HM D B.
  - exists [Y 0%nat t0]. split; [reflexivity|]. intros s Hs. cbn [pdiff pdiff_from peval]. split.
    + rewrite Rmult_0_r, Rplus_0_r. apply (grow (fun s => Y 0%nat (t0 + s) - Y 0%nat t0) (fun s => Y 1%nat (t0 + s) - 0) h M 0 HM); [rewrite Rplus_0_r; ring| | |exact Hs].
      * intros u Hu. apply derivable_pt_lim_minus; [apply shift_deriv, D; [lia|lra]|apply derivable_pt_lim_const].
      * intros u Hu. rewrite Rminus_0_r. cbn [pow]. rewrite Rmult_1_r. apply B. lra.
    + rewrite Rminus_0_r. cbn [pow]. rewrite Rmult_1_r. apply B. lra.
  - destruct (IH (fun k => Y (S k)) t0 h M Hh HM) as (T & LT & HT); [intros k s Hk Hs; apply D; [lia|exact Hs]|exact B|].
    exists (Y 0%nat t0 :: pint_from 1 T). assert (forall u, peval (Y 0%nat t0 :: pint_from 1 T) u = Y 0%nat t0 + peval (pinteg T) u) as EV by (intro u; unfold pinteg; cbn [peval]; ring).
    assert (forall u, peval (pdiff (Y 0%nat t0 :: pint_from 1 T)) u = peval T u) as ED by (intro u; exact (pdiff_pinteg T u)).
    split; [cbn [List.length]; f_equal; rewrite <- LT; clear; generalize 1%nat; induction T; intro; cbn; [reflexivity|f_equal; apply IHT]|].
    intros s Hs. rewrite ED. split; [|apply (HT s Hs)].
    apply (grow (fun s => Y 0%nat (t0 + s) - peval (Y 0%nat t0 :: pint_from 1 T) s) (fun s => Y 1%nat (t0 + s) - peval T s) h M (S q) HM).
    + rewrite Rplus_0_r. cbn [peval]. ring.
    + intros u Hu. apply derivable_pt_lim_minus; [apply shift_deriv, D; [lia|lra]|]. eapply (dlim_ext (fun v => Y 0%nat t0 + peval (pinteg T) v)); [intro v; now rewrite EV|].
      replace (peval T u) with (0 + peval T u) by ring. apply (derivable_pt_lim_plus (fun _ => Y 0%nat t0)); [apply derivable_pt_lim_const|apply pinteg_deriv].
    + intros u Hu. apply HT. exact Hu.
    + exact Hs.
Qed.

(** ** one step *)
Lemma rsum_abs : forall X (f : X -> R) l, Rabs (rsum (map f l)) <= rsum (map (fun a => Rabs (f a)) l).
Proof. intros X f l. induction l as [|a l IH]; cbn [map rsum]; [rewrite Rabs_R0; lra|]. eapply Rle_trans; [apply Rabs_triang|]. lra. Qed.
Lemma rsum_le : forall X (f g : X -> R) l, (forall a, In a l -> f a <= g a) -> rsum (map f l) <= rsum (map g l).
Proof. intros X f g l H. induction l as [|a l IH]; cbn [map rsum]; [lra|]. apply Rplus_le_compat; [apply H; now left|apply IH; intros b Hb; apply H; now right]. Qed.
Lemma rsum_minus : forall X (f g : X -> R) l, rsum (map (fun a => f a - g a) l) = rsum (map f l) - rsum (map g l).
Proof. intros X f g l. induction l as [|a l IH]; cbn [map rsum]; [ring|]. rewrite IH. ring. Qed.
Lemma weighted_le : forall (w v : nat -> R) l B A, 0 <= B -> (forall k, In k l -> Rabs (v k) <= B) -> rsum (map (fun k => Rabs (w k)) l) <= A -> Rabs (rsum (map (fun k => w k * v k) l)) <= A * B.
Proof.
  intros w v l B A HB H HA. eapply Rle_trans; [apply rsum_abs|]. apply Rle_trans with (rsum (map (fun k => B * Rabs (w k)) l)).
  - apply rsum_le. intros k Hk. rewrite Rabs_mult, Rmult_comm. apply Rmult_le_compat_r; [apply Rabs_pos|now apply H].
  - rewrite rsum_mult_l, Rmult_comm. apply Rmult_le_compat_r; assumption.
Qed.

(** a scheme with nodes [c] and weights [a], m stages, that integrates polynomials with q coefficients exactly *)
Record scheme (m q : nat) (c : nat -> R) (a : nat -> nat -> R) (A : R) : Prop := {
  sc_first : c 0%nat = 0; sc_last : c (m - 1)%nat = 1; sc_m : (2 <= m)%nat; sc_q : (1 <= q)%nat;
  sc_unit : forall j, (j < m)%nat -> 0 <= c j <= 1;
  sc_exact : forall j p F, (j < m)%nat -> (List.length p <= q)%nat -> (forall u, derivable_pt_lim F u (peval p u)) -> F (c j) - F 0 = rsum (map (fun k => a j k * peval p (c k)) (seq 0 m));
  sc_A : forall j, (j < m)%nat -> rsum (map (fun k => Rabs (a j k)) (seq 0 m)) <= A }.

Lemma peval_affine : forall T h, exists T', List.length T' = List.length T /\ forall u, peval T' u = peval T (h * u).
Proof.
  intros T h. induction T as [|b T (T' & L & E)]; [exists []; split; reflexivity|]. exists (b :: pscale h T'). split; [cbn; unfold pscale; rewrite map_length; lia|]. intro u. cbn [peval]. rewrite peval_pscale, E. ring.
Qed.
Lemma peval_affine_scale : forall T h, exists T', List.length T' = List.length T /\ forall u, peval T' u = h * peval T (h * u).
Proof. intros T h. destruct (peval_affine T h) as (T' & L & E). exists (pscale h T'). split; [unfold pscale; now rewrite map_length|]. intro u. now rewrite peval_pscale, E. Qed.
Lemma pdiff_length : forall p, List.length (pdiff p) = (List.length p - 1)%nat.
Proof. intros [|b p]; [reflexivity|]. cbn [pdiff List.length]. rewrite Nat.sub_succ, Nat.sub_0_r. generalize 1%nat. induction p; intro k; cbn; [reflexivity|]. f_equal. apply IHp. Qed.

Lemma local_error : forall m q c a A (Y : nat -> R -> R) t0 h M, scheme m q c a A -> 0 <= A -> 0 < h -> 0 <= M ->
  (forall k s, (k <= q)%nat -> t0 <= s <= t0 + h -> derivable_pt_lim (Y k) s (Y (S k) s)) -> (forall s, t0 <= s <= t0 + h -> Rabs (Y (S q) s) <= M) ->
  forall j, (j < m)%nat -> Rabs (Y 0%nat (t0 + c j * h) - Y 0%nat t0 - h * rsum (map (fun k => a j k * Y 1%nat (t0 + c k * h)) (seq 0 m))) <= (1 + A) * M * h ^ S q.
Proof.
  intros m q c a A Y t0 h M SC HA Hh HM D B j Hj. destruct (taylor q Y t0 h M ltac:(lra) HM D B) as (T & LT & HT). destruct SC as [C0 CL Cm Cq CU CE CA].
  destruct (peval_affine T h) as (F & LF & EF). destruct (peval_affine_scale (pdiff T) h) as (P & LP & EP).
  assert (forall k, (k < m)%nat -> 0 <= c k * h <= h) as CH.
  { intros k Hk. specialize (CU k Hk). split; [apply Rmult_le_pos; lra|]. rewrite <- (Rmult_1_l h) at 2. apply Rmult_le_compat_r; lra. }
  assert (peval T (c j * h) - peval T 0 = h * rsum (map (fun k => a j k * peval (pdiff T) (c k * h)) (seq 0 m))) as EX.
  { assert (forall u, derivable_pt_lim (peval F) u (peval P u)) as DF.
    { intro u. rewrite EP. apply (dlim_ext (fun v => peval T (h * v))); [intro v; now rewrite EF|]. rewrite Rmult_comm. apply (derivable_pt_lim_comp (fun v => h * v) (peval T)); [|apply peval_deriv].
      pose proof (derivable_pt_lim_scal (fun v => v) h u 1 (derivable_pt_lim_id u)) as X. rewrite Rmult_1_r in X. exact X. }
    pose proof (CE j P (peval F) Hj ltac:(rewrite LP, pdiff_length, LT; lia) DF) as X. rewrite !EF, Rmult_0_r in X. rewrite (Rmult_comm (c j)), X, <- rsum_mult_l. apply rsum_ext. intros k _. rewrite EP, (Rmult_comm (c k)). ring. }
  assert (Y 0%nat t0 = peval T 0) as E0.
  { destruct (HT 0 ltac:(lra)) as [X _]. rewrite Rplus_0_r, pow_ne_zero, Rmult_0_r in X by lia. pose proof (Rabs_pos (Y 0%nat t0 - peval T 0)). apply Rminus_diag_uniq. destruct (Req_dec (Y 0%nat t0 - peval T 0) 0) as [|N]; [assumption|]. apply Rabs_no_R0 in N. lra. }
  replace (Y 0%nat (t0 + c j * h) - Y 0%nat t0 - h * rsum (map (fun k => a j k * Y 1%nat (t0 + c k * h)) (seq 0 m)))
    with ((Y 0%nat (t0 + c j * h) - peval T (c j * h)) - h * rsum (map (fun k => a j k * (Y 1%nat (t0 + c k * h) - peval (pdiff T) (c k * h))) (seq 0 m))).
  2:{ rewrite (rsum_ext _ (fun k => a j k * (Y 1%nat (t0 + c k * h) - peval (pdiff T) (c k * h))) (fun k => a j k * Y 1%nat (t0 + c k * h) - a j k * peval (pdiff T) (c k * h))) by (intros; ring). rewrite rsum_minus, E0.
      replace (peval T (c j * h)) with (peval T 0 + (peval T (c j * h) - peval T 0)) by ring. rewrite EX. ring. }
  assert (forall k n, (k < m)%nat -> (c k * h) ^ n <= h ^ n) as PW by (intros k n Hk; apply pow_incr; now apply CH).
  assert (0 <= h ^ q) as HQ by (apply pow_le; lra).
  eapply Rle_trans; [apply Rabs_triang|]. rewrite Rabs_Ropp, Rabs_mult, (Rabs_right h) by lra.
  replace ((1 + A) * M * h ^ S q) with (M * h ^ S q + h * (A * (M * h ^ q))) by (cbn [pow]; ring).
  apply Rplus_le_compat.
  - eapply Rle_trans; [apply (HT (c j * h)); now apply CH|]. apply Rmult_le_compat_l; [exact HM|]. now apply PW.
  - apply Rmult_le_compat_l; [lra|]. apply weighted_le; [now apply Rmult_le_pos| |now apply CA]. intros k Hk. apply in_seq in Hk. eapply Rle_trans; [apply (HT (c k * h)); apply CH; lia|]. apply Rmult_le_compat_l; [exact HM|]. apply PW. lia.
Qed.

(** the largest of finitely many errors *)
Lemma largest : forall X (f : X -> R) l, exists E, 0 <= E /\ (forall x, In x l -> f x <= E) /\ (forall B, 0 <= B -> (forall x, In x l -> f x <= B) -> E <= B).
Proof.
  intros X f l. induction l as [|a l (E & P & U & Lst)].
  - exists 0. split; [lra|]. split; [intros x []|]. intros B HB _. exact HB.
  - exists (Rmax (f a) E). split; [eapply Rle_trans; [exact P|apply Rmax_r]|]. split.
    + intros x [<-|H]; [apply Rmax_l|]. eapply Rle_trans; [now apply U|apply Rmax_r].
    + intros B HB H. apply Rmax_lub; [apply H; now left|]. apply Lst; [exact HB|]. intros x Hx. apply H. now right.
Qed.

(** ** propagation over one interval: every stage error is bounded by the first one and the local error *)
Section Step.
Variables (st : list string) (m q : nat) (c : nat -> R) (a : nat -> nat -> R) (A : R).
Hypothesis SC : scheme m q c a A.
Hypothesis HA : 0 <= A.
Lemma one_interval : forall (X D : string -> nat -> R) (Y : string -> nat -> R -> R) t0 h M K e0, 0 < h -> 0 <= M -> 0 <= K -> 0 <= e0 -> h * A * K <= 1 / 2 ->
  (forall nm j, In nm st -> (j < m)%nat -> X nm j = X nm 0%nat + h * rsum (map (fun k => a j k * D nm k) (seq 0 m))) ->
  (forall j E, (j < m)%nat -> (forall nm, In nm st -> Rabs (X nm j - Y nm 0%nat (t0 + c j * h)) <= E) -> forall nm, In nm st -> Rabs (D nm j - Y nm 1%nat (t0 + c j * h)) <= K * E) ->
  (forall nm k s, In nm st -> (k <= q)%nat -> t0 <= s <= t0 + h -> derivable_pt_lim (Y nm k) s (Y nm (S k) s)) -> (forall nm s, In nm st -> t0 <= s <= t0 + h -> Rabs (Y nm (S q) s) <= M) ->
  (forall nm, In nm st -> Rabs (X nm 0%nat - Y nm 0%nat t0) <= e0) ->
  forall nm j, In nm st -> (j < m)%nat -> Rabs (X nm j - Y nm 0%nat (t0 + c j * h)) <= (1 + 2 * h * A * K) * e0 + 2 * ((1 + A) * M * h ^ S q).
Proof.
  intros X D Y t0 h M K e0 Hh HM HK He Hs HX HL HD HB H0 nm j Hnm Hj. set (del := (1 + A) * M * h ^ S q).
  assert (0 <= del) as Hdel by (unfold del; apply Rmult_le_pos; [apply Rmult_le_pos; lra|apply pow_le; lra]).
  destruct (largest (string * nat) (fun p => Rabs (X (fst p) (snd p) - Y (fst p) 0%nat (t0 + c (snd p) * h))) (list_prod st (seq 0 m))) as (E & PE & UE & LE).
  assert (forall nm j, In nm st -> (j < m)%nat -> Rabs (X nm j - Y nm 0%nat (t0 + c j * h)) <= E) as UE'.
  { intros nm' j' H1 H2. apply (UE (nm', j')). apply in_prod; [exact H1|]. apply in_seq. lia. }
  assert (forall nm j, In nm st -> (j < m)%nat -> Rabs (X nm j - Y nm 0%nat (t0 + c j * h)) <= e0 + h * (A * (K * E)) + del) as ST.
  { intros nm' j' H1 H2. rewrite (HX nm' j' H1 H2).
    replace (X nm' 0%nat + h * rsum (map (fun k => a j' k * D nm' k) (seq 0 m)) - Y nm' 0%nat (t0 + c j' * h))
      with ((X nm' 0%nat - Y nm' 0%nat t0) + h * rsum (map (fun k => a j' k * (D nm' k - Y nm' 1%nat (t0 + c k * h))) (seq 0 m))
            - (Y nm' 0%nat (t0 + c j' * h) - Y nm' 0%nat t0 - h * rsum (map (fun k => a j' k * Y nm' 1%nat (t0 + c k * h)) (seq 0 m)))).
    2:{ rewrite (rsum_ext _ (fun k => a j' k * (D nm' k - Y nm' 1%nat (t0 + c k * h))) (fun k => a j' k * D nm' k - a j' k * Y nm' 1%nat (t0 + c k * h))) by (intros; ring). rewrite rsum_minus. ring. }
    unfold Rminus at 1. eapply Rle_trans; [apply Rabs_triang|]. rewrite Rabs_Ropp. apply Rplus_le_compat.
    - eapply Rle_trans; [apply Rabs_triang|]. apply Rplus_le_compat; [now apply H0|]. rewrite Rabs_mult, (Rabs_right h) by lra. apply Rmult_le_compat_l; [lra|].
      apply weighted_le; [now apply Rmult_le_pos| |apply (sc_A _ _ _ _ _ SC); exact H2]. intros k Hk. apply in_seq in Hk. apply HL; [lia| |exact H1]. intros z Hz. apply UE'; [exact Hz|lia].
    - apply (local_error m q c a A (Y nm') t0 h M SC HA Hh HM); [intros; now apply HD|intros; now apply HB|exact H2]. }
  assert (0 <= h * A * K) as HP by (apply Rmult_le_pos; [apply Rmult_le_pos; lra|lra]).
  assert (h * (A * (K * E)) = h * A * K * E) as EQ by ring.
  assert (E <= e0 + h * A * K * E + del) as HE.
  { apply LE; [assert (0 <= h * A * K * E) by (now apply Rmult_le_pos); lra|]. intros [nm' j'] Hp. apply in_prod_iff in Hp. destruct Hp as [H1 H2]. apply in_seq in H2. cbn [fst snd]. rewrite <- EQ. apply ST; [exact H1|lia]. }
  assert (h * A * K * E <= 1 / 2 * E) as HE2 by (apply Rmult_le_compat_r; assumption).
  assert (E <= 2 * (e0 + del)) as HE3 by lra.
  eapply Rle_trans; [now apply ST|]. rewrite EQ. assert (h * A * K * E <= h * A * K * (2 * (e0 + del))) as HE4 by (apply Rmult_le_compat_l; assumption).
  assert (h * A * K * (2 * del) <= 1 / 2 * (2 * del)) as HE5 by (apply Rmult_le_compat_r; lra).
  replace ((1 + 2 * h * A * K) * e0) with (e0 + h * A * K * (2 * e0)) by ring. replace (h * A * K * (2 * (e0 + del))) with (h * A * K * (2 * e0) + h * A * K * (2 * del)) in HE4 by ring. lra.
Qed.

(** ** ... and over all of them *)
Lemma exp_1x : forall x, 0 <= x -> 1 + x <= exp x.
Proof. intros x Hx. destruct (Req_dec x 0) as [->|N]; [rewrite exp_0; lra|]. left. apply exp_ineq1. lra. Qed.
Lemma all_intervals : forall (n : nat) (tau : nat -> R) (X D : string -> nat -> R) (Y : string -> nat -> R -> R) h M K e0, 0 <= M -> 0 <= K -> 0 <= e0 -> 0 <= h -> h * A * K <= 1 / 2 ->
  (forall i, (i < n)%nat -> 0 < tau (S i) - tau i <= h) ->
  (forall i nm j, (i < n)%nat -> In nm st -> (j < m)%nat -> X nm (i * (m - 1) + j)%nat = X nm (i * (m - 1))%nat + (tau (S i) - tau i) * rsum (map (fun k => a j k * D nm (i * (m - 1) + k)%nat) (seq 0 m))) ->
  (forall i j E, (i < n)%nat -> (j < m)%nat -> (forall nm, In nm st -> Rabs (X nm (i * (m - 1) + j)%nat - Y nm 0%nat (tau i + c j * (tau (S i) - tau i))) <= E) ->
     forall nm, In nm st -> Rabs (D nm (i * (m - 1) + j)%nat - Y nm 1%nat (tau i + c j * (tau (S i) - tau i))) <= K * E) ->
  (forall nm k s, In nm st -> (k <= q)%nat -> tau 0%nat <= s <= tau n -> derivable_pt_lim (Y nm k) s (Y nm (S k) s)) -> (forall nm s, In nm st -> tau 0%nat <= s <= tau n -> Rabs (Y nm (S q) s) <= M) ->
  (forall nm, In nm st -> Rabs (X nm 0%nat - Y nm 0%nat (tau 0%nat)) <= e0) ->
  forall i nm j, (i < n)%nat -> In nm st -> (j < m)%nat ->
    Rabs (X nm (i * (m - 1) + j)%nat - Y nm 0%nat (tau i + c j * (tau (S i) - tau i))) <=
      exp (2 * A * K * (tau (S i) - tau 0%nat)) * (e0 + 2 * (1 + A) * M * h ^ q * (tau (S i) - tau 0%nat)).
Proof.
  intros n tau X D Y h M K e0 HM HK He Hh Hs HT HX HL HD HB H0.
  assert (forall i, (i <= n)%nat -> tau 0%nat <= tau i) as T0. { induction i as [|i IH]; intro Hi; [lra|]. specialize (HT i ltac:(lia)). specialize (IH ltac:(lia)). lra. }
  assert (forall k i, (i + k <= n)%nat -> tau i <= tau (i + k)%nat) as TM. { induction k as [|k IH]; intros i Hi; [rewrite Nat.add_0_r; lra|]. specialize (HT (i + k)%nat ltac:(lia)). specialize (IH i ltac:(lia)). rewrite Nat.add_succ_r. lra. }
  set (bound := fun i => exp (2 * A * K * (tau i - tau 0%nat)) * (e0 + 2 * (1 + A) * M * h ^ q * (tau i - tau 0%nat))).
  assert (0 <= h ^ q) as Hq by (now apply pow_le).
  assert (forall i, (i < n)%nat -> (forall nm, In nm st -> Rabs (X nm (i * (m - 1))%nat - Y nm 0%nat (tau i)) <= bound i) ->
    forall nm j, In nm st -> (j < m)%nat -> Rabs (X nm (i * (m - 1) + j)%nat - Y nm 0%nat (tau i + c j * (tau (S i) - tau i))) <= bound (S i)) as STEP.
  { intros i Hi HI nm j Hnm Hj. destruct (HT i Hi) as [P1 P2]. set (d := tau (S i) - tau i) in *.
    assert (0 <= bound i) as BP. { unfold bound. apply Rmult_le_pos; [left; apply exp_pos|]. assert (0 <= 2 * (1 + A) * M * h ^ q * (tau i - tau 0%nat)); [|lra]. repeat apply Rmult_le_pos; try lra. specialize (T0 i ltac:(lia)). lra. }
    assert (tau i + d = tau (S i)) as ED by (unfold d; ring). assert (tau (S i) <= tau n) as TN. { replace n with (S i + (n - S i))%nat by lia. apply TM. lia. } pose proof (T0 i ltac:(lia)) as T0i.
    assert (d * A * K <= h * A * K) as HdK by (rewrite !(Rmult_assoc _ A K); apply Rmult_le_compat_r; [now apply Rmult_le_pos|exact P2]).
    eapply Rle_trans; [apply (one_interval (fun nm j => X nm (i * (m - 1) + j)%nat) (fun nm j => D nm (i * (m - 1) + j)%nat) Y (tau i) d M K (bound i)); try assumption|].
    - lra.
    - intros nm' j' H1 H2. rewrite Nat.add_0_r. now apply HX.
    - intros j' E H1 H2. now apply (HL i j' E Hi H1).
    - intros nm' k s H1 H2 H3. apply HD; [exact H1|exact H2|lra].
    - intros nm' s H1 H2. apply HB; [exact H1|lra].
    - intros nm' H1. rewrite Nat.add_0_r. now apply HI.
    - replace (2 * d * A * K) with (2 * A * K * d) by ring. assert (0 <= 2 * A * K * d) as HP by (repeat apply Rmult_le_pos; lra).
      unfold bound at 2. replace (tau (S i) - tau 0%nat) with ((tau i - tau 0%nat) + d) by (unfold d; ring). rewrite (Rmult_plus_distr_l (2 * A * K)), exp_plus.
      set (ea := exp (2 * A * K * (tau i - tau 0%nat))) in *. set (C := 2 * (1 + A) * M * h ^ q). 
      assert (1 <= ea) as Hea. { unfold ea. rewrite <- exp_0. destruct (Req_dec (2 * A * K * (tau i - tau 0%nat)) 0) as [->|N]; [lra|]. left. apply exp_increasing. assert (0 <= 2 * A * K * (tau i - tau 0%nat)) by (repeat apply Rmult_le_pos; lra). lra. }
      pose proof (exp_1x _ HP) as Hed. set (eb := exp (2 * A * K * d)) in *.
      assert (2 * ((1 + A) * M * d ^ S q) <= C * d) as HC.
      { unfold C. cbn [pow]. replace (2 * ((1 + A) * M * (d * d ^ q))) with (2 * (1 + A) * M * d ^ q * d) by ring. apply Rmult_le_compat_r; [lra|]. apply Rmult_le_compat_l; [repeat apply Rmult_le_pos; lra|]. apply pow_incr. lra. }
      assert (0 <= C * d) as HCd by (unfold C; repeat apply Rmult_le_pos; lra).
      assert ((1 + 2 * A * K * d) * bound i <= eb * bound i) as H1 by (apply Rmult_le_compat_r; [exact BP|exact Hed]).
      assert (1 <= ea * eb) as H2. { rewrite <- (Rmult_1_l 1). apply Rmult_le_compat; lra. }
      assert (1 * (C * d) <= ea * eb * (C * d)) as H3 by (apply Rmult_le_compat_r; assumption).
      unfold bound in H1 at 2. fold ea C in H1. replace (ea * eb * (e0 + C * (tau i - tau 0%nat + d))) with (eb * (ea * (e0 + C * (tau i - tau 0%nat))) + ea * eb * (C * d)) by ring. lra. }
  assert (forall i, (i < n)%nat -> forall nm, In nm st -> Rabs (X nm (i * (m - 1))%nat - Y nm 0%nat (tau i)) <= bound i) as ALL.
  { induction i as [|i IH]; intros Hi nm Hnm.
    - replace (bound 0%nat) with e0; [cbn [Nat.mul]; now apply H0|]. unfold bound. replace (tau 0%nat - tau 0%nat) with 0 by ring. rewrite !Rmult_0_r, exp_0. ring.
    - pose proof (sc_m _ _ _ _ _ SC) as Hm. specialize (STEP i ltac:(lia) (IH ltac:(lia)) nm (m - 1)%nat Hnm ltac:(lia)). rewrite (sc_last _ _ _ _ _ SC) in STEP.
      replace (S i * (m - 1))%nat with (i * (m - 1) + (m - 1))%nat by lia. replace (tau (S i)) with (tau i + 1 * (tau (S i) - tau i)) at 1 by ring. exact STEP. }
  intros i nm j Hi Hnm Hj. exact (STEP i Hi (ALL i Hi) nm j Hnm Hj).
Qed.
End Step.
