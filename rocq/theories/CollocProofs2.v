(** Legendre polynomials: values, parity, and the real roots of P_{N-1} + P_N. *)
From Verif Require Import Base RBase CollocModel CollocProofs.
From Coq Require Import Sorted.

Lemma legPP_snd : forall n t, snd (legPP n t) = legP (S n) t.
Proof. intros n t. unfold legP. simpl. destruct (legPP n t); reflexivity. Qed.
Lemma legP_0 : forall t, legP 0 t = 1. Proof. reflexivity. Qed.
Lemma legP_1 : forall t, legP 1 t = t. Proof. reflexivity. Qed.
Lemma legP_SS : forall n t, legP (S (S n)) t = ((2 * INR n + 3) * t * legP (S n) t - (INR n + 1) * legP n t) / (INR n + 2).
Proof.
  intros n t. unfold legP. simpl. destruct (legPP n t) as [a b]. reflexivity.
Qed.
Lemma INR_pos2 : forall n, 0 <= INR n. Proof. intro n. apply pos_INR. Qed.

Lemma two_ind : forall (P : nat -> Prop), P 0%nat -> P 1%nat -> (forall n, P n -> P (S n) -> P (S (S n))) -> forall n, P n.
Proof. intros P H0 H1 HS n. assert (P n /\ P (S n)) as [H _]; [|exact H]. induction n as [|n [A B]]; auto. Qed.

Lemma legP_at_1 : forall n, legP n 1 = 1.
Proof. apply two_ind; [reflexivity|reflexivity|]. intros n A B. rewrite legP_SS, A, B. pose proof (INR_pos2 n). field. lra. Qed.
Lemma legP_parity : forall t n, legP n (- t) = (-1) ^ n * legP n t.
Proof.
  intro t. apply two_ind; [simpl; unfold legP; simpl; ring | unfold legP; simpl; ring|].
  intros n A B. rewrite !legP_SS, A, B. simpl. pose proof (INR_pos2 n). field. lra.
Qed.
Lemma pow_m1_sq : forall n, (-1) ^ n * (-1) ^ n = 1.
Proof. intro n. rewrite <- Rpow_mult_distr. replace (-1 * -1) with 1 by ring. apply pow1. Qed.
Lemma legP_at_m1 : forall n, legP n (-1) = (-1) ^ n.
Proof. intro n. replace (-1) with (- (1)) at 1 by ring. rewrite legP_parity, legP_at_1. ring. Qed.

Lemma legP_grows : forall t, 1 < t -> forall n, 0 < legP n t /\ legP n t < legP (S n) t.
Proof.
  intros t Ht n; induction n as [|n [A B]]; [unfold legP; simpl; lra|]. split; [lra|].
  pose proof (INR_pos2 n).
  assert (legP (S (S n)) t - legP (S n) t = ((2 * INR n + 3) * ((t - 1) * legP (S n) t) + (INR n + 1) * (legP (S n) t - legP n t)) / (INR n + 2)) as E
    by (rewrite legP_SS; field; lra).
  assert (0 < (t - 1) * legP (S n) t) as P1 by (apply Rmult_lt_0_compat; lra).
  assert (0 < ((2 * INR n + 3) * ((t - 1) * legP (S n) t) + (INR n + 1) * (legP (S n) t - legP n t)) / (INR n + 2)).
  { apply Rdiv_lt_0_compat; [|lra]. apply Rplus_lt_0_compat; apply Rmult_lt_0_compat; lra. }
  lra.
Qed.

(** the characteristic polynomial of the LGR points *)
Definition lgr_char (N : nat) (t : R) : R := legP (N - 1) t + legP N t.

Lemma legval_char : forall N t, (1 <= N)%nat -> legval (repeat 0 (N - 1) ++ [1; 1]) t = lgr_char N t.
Proof.
  intros N t HN. unfold legval, lgr_char. destruct N as [|k]; [lia|]. simpl Nat.sub. rewrite Nat.sub_0_r.
  assert (forall k s, rsum (map2 (fun c i => c * legP i t) (repeat 0 k ++ [1; 1]) (seq s (List.length (repeat 0 k ++ [1; 1])))) = legP (s + k) t + legP (S (s + k)) t) as G.
  { clear. intros k; induction k as [|k IH]; intro s.
    - simpl. rewrite Nat.add_0_r. ring.
    - cbn [repeat app List.length seq map2 rsum]. rewrite IH. replace (S s + k)%nat with (s + S k)%nat by lia. ring. }
  rewrite G. reflexivity.
Qed.
Lemma legval_P : forall N t, legval (repeat 0 N ++ [1]) t = legP N t.
Proof.
  intros N t. unfold legval.
  assert (forall k s, rsum (map2 (fun c i => c * legP i t) (repeat 0 k ++ [1]) (seq s (List.length (repeat 0 k ++ [1])))) = legP (s + k) t) as G.
  { intros k; induction k as [|k IH]; intro s.
    - simpl. rewrite Nat.add_0_r. ring.
    - cbn [repeat app List.length seq map2 rsum]. rewrite IH. replace (S s + k)%nat with (s + S k)%nat by lia. ring. }
  rewrite G. reflexivity.
Qed.

Lemma char_at_m1 : forall N, (1 <= N)%nat -> lgr_char N (-1) = 0.
Proof. intros [|k] H; [lia|]. unfold lgr_char. simpl Nat.sub. rewrite Nat.sub_0_r, !legP_at_m1. simpl. ring. Qed.
Lemma char_at_1 : forall N, lgr_char N 1 = 2.
Proof. intro N. unfold lgr_char. rewrite !legP_at_1. ring. Qed.
Lemma char_roots_range : forall N t, (1 <= N)%nat -> lgr_char N t = 0 -> -1 <= t < 1.
Proof.
  intros [|k] t H Z; [lia|]. unfold lgr_char in Z. simpl Nat.sub in Z. rewrite Nat.sub_0_r in Z. split.
  - destruct (Rle_lt_dec (-1) t) as [|Hlt]; [assumption|exfalso].
    replace t with (- - t) in Z by ring. rewrite !(legP_parity (- t)) in Z. simpl in Z.
    destruct (legP_grows (- t) ltac:(lra) k) as [A B].
    replace ((-1) ^ k * legP k (- t) + -1 * (-1) ^ k * legP (S k) (- t)) with ((-1) ^ k * (legP k (- t) - legP (S k) (- t))) in Z by ring.
    apply Rmult_integral in Z. destruct Z as [Z|Z]; [|lra]. pose proof (pow_m1_sq k) as S. rewrite Z in S. lra.
  - destruct (Rtotal_order t 1) as [|[->|Hgt]]; [assumption| |]; exfalso.
    + rewrite !legP_at_1 in Z. lra.
    + destruct (legP_grows t Hgt k). lra.
Qed.

(** coefficients *)
Lemma legP_poly : forall n, exists p, List.length p = S n /\ forall t, peval p t = legP n t.
Proof.
  apply two_ind.
  - exists [1]. split; [reflexivity|]. intro; rewrite legP_0; simpl; ring.
  - exists [0; 1]. split; [reflexivity|]. intro; rewrite legP_1; simpl; ring.
  - intros n (p & Lp & Ep) (q & Lq & Eq).
    exists (padd (pmul_lin q 0 ((2 * INR n + 3) / (INR n + 2))) (pscale (- (INR n + 1) / (INR n + 2)) p)). split.
    + rewrite padd_length, pmul_lin_length by (intro C; subst; discriminate). unfold pscale. rewrite map_length. lia.
    + intro t. rewrite peval_padd, peval_pmul_lin, peval_pscale, Ep, Eq, legP_SS. pose proof (INR_pos2 n). field. lra.
Qed.
Lemma char_poly : forall N, (1 <= N)%nat -> exists p, List.length p = S N /\ forall t, peval p t = lgr_char N t.
Proof.
  intros N H. destruct (legP_poly N) as (p & Lp & Ep), (legP_poly (N - 1)) as (q & Lq & Eq).
  exists (padd q p). split; [rewrite padd_length; lia|]. intro t. rewrite peval_padd, Ep, Eq. reflexivity.
Qed.
Lemma cont_ext : forall f g, (forall t, f t = g t) -> continuity f -> continuity g.
Proof.
  intros f g E H x eps He. destruct (H x eps He) as (a & Ha & K). exists a. split; [assumption|]. intros y Hy. specialize (K y Hy).
  simpl in *. unfold R_dist in *. rewrite <- !E. exact K.
Qed.
Lemma legP_cont : forall n, continuity (legP n).
Proof. intro n. destruct (legP_poly n) as (p & _ & E). apply cont_ext with (f := peval p); [assumption|apply peval_cont]. Qed.

(** ** Alternating signs and interlacing (lists descending) *)
Fixpoint alt (f : R -> R) (s : R) (l : list R) : Prop :=
  match l with [] => True | a :: r => 0 < s * f a /\ alt f (- s) r end.
(** [interl rs l]: l = l0 > rs0 > l1 > rs1 > ... > ln *)
Inductive interl : list R -> list R -> Prop :=
| IL0 : forall a, interl [] [a]
| ILS : forall a c b rs l, a > c -> c > b -> interl rs (b :: l) -> interl (c :: rs) (a :: b :: l).
Fixpoint desc (l : list R) : Prop := match l with a :: (b :: _) as r => a > b /\ desc r | _ => True end.

Lemma alt_scale : forall f g k s l, (forall x, In x l -> f x = k x * g x /\ 0 < k x) -> alt g s l -> alt f s l.
Proof.
  intros f g k s l; revert s; induction l as [|a l IH]; intros s H; simpl; [auto|]. intros [A B].
  destruct (H a (or_introl eq_refl)) as [E P]. split; [|apply IH; auto; intros; apply H; simpl; auto].
  rewrite E. replace (s * (k a * g a)) with (k a * (s * g a)) by ring. now apply Rmult_lt_0_compat.
Qed.
Lemma alt_neg : forall f g k s l, (forall x, In x l -> f x = k x * g x /\ k x < 0) -> alt g s l -> alt f (- s) l.
Proof.
  intros f g k s l; revert s; induction l as [|a l IH]; intros s H; simpl; [auto|]. intros [A B].
  destruct (H a (or_introl eq_refl)) as [E P]. split; [|apply IH; auto; intros; apply H; simpl; auto].
  rewrite E. replace (- s * (k a * g a)) with (- k a * (s * g a)) by ring. apply Rmult_lt_0_compat; lra.
Qed.
Lemma alt_snoc : forall f l s z, alt f s l -> 0 < s * (-1) ^ (List.length l) * f z -> alt f s (l ++ [z]).
Proof.
  intros f l; induction l as [|a l IH]; intros s z; simpl; intros A B; [split; [|trivial]; rewrite Rmult_1_r in B; exact B|].
  destruct A as [A A']. split; [assumption|]. apply IH; [assumption|]. replace (- s * (-1) ^ List.length l * f z) with (s * (-1 * (-1) ^ List.length l) * f z) by ring. exact B.
Qed.

Lemma ivt_between : forall f a b s, continuity f -> a > b -> 0 < s * f a -> 0 < - s * f b -> exists c, a > c /\ c > b /\ f c = 0.
Proof.
  intros f a b s Hc Hab Ha Hb. destruct (IVT_cor f b a Hc) as (z & [Hz1 Hz2] & Ez); [lra| |].
  - assert (0 < (s * f a) * (- s * f b)) as P by (now apply Rmult_lt_0_compat).
    assert (0 <= s * s) by (apply Rle_0_sqr). 
    destruct (Rle_lt_dec (f b * f a) 0) as [|Hp]; [assumption|exfalso].
    assert (0 <= (s * s) * (f b * f a)) by (apply Rmult_le_pos; lra).
    replace (s * f a * (- s * f b)) with (- ((s * s) * (f b * f a))) in P by ring. lra.
  - exists z. split; [|split; [|assumption]].
    + destruct Hz2 as [|E]; [lra|]. subst z. rewrite Ez in Ha. lra.
    + destruct Hz1 as [|E]; [lra|]. subst z. rewrite Ez in Hb. lra.
Qed.
Lemma ivt_alt : forall f l s, continuity f -> desc l -> l <> [] -> alt f s l -> exists rs, interl rs l /\ Forall (fun r => f r = 0) rs.
Proof.
  intros f l; induction l as [|a l IH]; intros s Hc Hd Hne A; [congruence|]. destruct l as [|b l].
  - exists []. split; constructor.
  - simpl in Hd, A. destruct Hd as [Hab Hd], A as (A1 & A2 & A3). destruct (IH (- s) Hc Hd) as (rs & I & F); [discriminate | simpl; auto |].
    destruct (ivt_between f a b s Hc Hab A1 A2) as (c & C1 & C2 & C3). exists (c :: rs). split; constructor; auto.
Qed.

Lemma interl_len : forall rs l, interl rs l -> List.length l = S (List.length rs).
Proof. intros rs l H; induction H; simpl in *; auto. Qed.
(** roots and points bounded by the first and last point *)
Lemma interl_lt : forall rs l, interl rs l -> forall a r, l = a :: r -> Forall (fun x => x < a) rs /\ Forall (fun x => x < a) r.
Proof.
  intros rs l H; induction H as [a0|a0 c b rs l H1 H2 H IH]; intros a r E; inversion E; subst; [split; constructor|].
  destruct (IH b l eq_refl) as [A B]. split; constructor; try lra; eapply Forall_impl; try eassumption; simpl; intros; lra.
Qed.
Lemma interl_gt : forall rs l, interl rs l -> forall r z, l = r ++ [z] -> Forall (fun x => x > z) rs.
Proof.
  intros rs l H; induction H as [a0|a0 c b rs l H1 H2 H IH]; intros r z E; [constructor|].
  destruct r as [|a1 r]; [discriminate|]. simpl in E. inversion E; subst. specialize (IH r z H4).
  constructor; [|exact IH]. destruct r as [|b1 r]; [inversion H4; subst; assumption|]. inversion H4; subst.
  assert (In z (r ++ [z])) as Hin by (apply in_or_app; simpl; auto).
  destruct (interl_lt _ _ H b1 (r ++ [z]) eq_refl) as [_ F]. rewrite Forall_forall in F. specialize (F z Hin). simpl in F. lra.
Qed.
Lemma interl_desc : forall rs l, interl rs l -> desc rs.
Proof.
  intros rs l H; induction H as [a0|a0 c b rs l H1 H2 H IH]; [exact Logic.I|]. destruct rs as [|d rs]; [exact Logic.I|].
  split; [|exact IH]. destruct (interl_lt _ _ H b l eq_refl) as [F _]. inversion F; subst. lra.
Qed.
Lemma interl_inner : forall r a z s, interl s (a :: r ++ [z]) -> interl r s.
Proof.
  intros r; induction r as [|b r IH]; intros a z s H; simpl in H; inversion H; subst.
  - inversion H6; subst. constructor.
  - specialize (IH _ _ _ H6). destruct rs as [|d rs]; [inversion IH|].
    constructor; [assumption| |assumption]. destruct (interl_lt _ _ H6 b (r ++ [z]) eq_refl) as [F _]. inversion F; subst. lra.
Qed.

Definition prodr (r : list R) (t : R) : R := fold_right Rmult 1 (map (fun a => t - a) r).
Lemma prodr_pos : forall r t, Forall (fun x => x < t) r -> 0 < prodr r t.
Proof. intros r t H; unfold prodr; induction H; simpl; [lra|]. apply Rmult_lt_0_compat; [lra|assumption]. Qed.

Lemma interl_sign : forall r s, interl r s -> alt (prodr r) 1 s.
Proof.
  intros r s H; induction H as [a0|a0 c b rs l H1 H2 H IH]; [simpl; unfold prodr; simpl; split; [lra|trivial]|].
  pose proof (interl_lt _ _ H b l eq_refl) as [F1 F2]. split.
  - rewrite Rmult_1_l. apply prodr_pos. constructor; [lra|]. eapply Forall_impl; [|exact F1]. simpl; intros; lra.
  - apply alt_neg with (g := prodr rs) (k := fun x => x - c); [|exact IH].
    intros x Hx. split; [reflexivity|]. destruct Hx as [->|Hx]; [lra|]. rewrite Forall_forall in F2. specialize (F2 x Hx). simpl in F2. lra.
Qed.

Lemma desc_lt_all : forall l a, desc (a :: l) -> Forall (fun x => x < a) l.
Proof.
  intros l; induction l as [|b l IH]; intros a H; [constructor|]. simpl in H. destruct H as [H1 H2]. constructor; [lra|].
  eapply Forall_impl; [|apply IH; exact H2]. simpl; intros; lra.
Qed.
Lemma desc_NoDup : forall l, desc l -> NoDup l.
Proof.
  intros l; induction l as [|a l IH]; intro H; constructor.
  - intro C. pose proof (desc_lt_all l a H) as F. rewrite Forall_forall in F. specialize (F a C). simpl in F. lra.
  - apply IH. destruct l; [exact Logic.I|apply H].
Qed.
Lemma desc_snoc : forall l z, desc l -> Forall (fun x => x > z) l -> desc (l ++ [z]).
Proof.
  intros l; induction l as [|a l IH]; intros z H F; [exact Logic.I|]. inversion F; subst. destruct l as [|b l]; simpl in *; [auto|].
  destruct H as [H1' H2']. split; [assumption|]. apply IH; assumption.
Qed.
Lemma desc_cons : forall l a, desc l -> Forall (fun x => x < a) l -> desc (a :: l).
Proof. intros [|b l] a H F; simpl; [trivial|]. inversion F; subst. split; [lra|assumption]. Qed.

(** ** All n roots of P_n are real, simple, in (-1,1), and P_{n-1} alternates on them *)
Lemma legendre_roots : forall n, exists r, List.length r = S n /\ desc r /\ Forall (fun x => -1 < x < 1) r /\
  Forall (fun x => legP (S n) x = 0) r /\ alt (legP n) 1 r.
Proof.
  intro n; induction n as [|n (r & Lr & Dr & Br & Zr & Ar)].
  - exists [0]. split; [reflexivity|]. split; [exact Logic.I|]. split; [repeat constructor; lra|]. split; [repeat constructor|].
    simpl. split; [rewrite legP_0; lra|trivial].
  - pose proof (INR_pos2 n) as Hn.
    assert (alt (legP (S (S n))) (-1) r) as A1.
    { apply alt_neg with (g := legP n) (k := fun _ => - (INR n + 1) / (INR n + 2)); [|assumption].
      intros x Hx. rewrite Forall_forall in Zr. rewrite legP_SS, (Zr x Hx). split; [field; lra|].
      unfold Rdiv. rewrite <- Ropp_mult_distr_l. apply Ropp_lt_gt_0_contravar. apply Rlt_gt, Rmult_lt_0_compat; [lra|]. apply Rinv_0_lt_compat; lra. }
    assert (alt (legP (S (S n))) 1 (1 :: r ++ [-1])) as A2.
    { cbn [alt]. rewrite legP_at_1. split; [lra|]. apply alt_snoc; [assumption|]. rewrite legP_at_m1, Lr.
      pose proof (pow_m1_sq n) as PQ. simpl. ring_simplify. simpl. lra. }
    assert (desc (1 :: r ++ [-1])) as D2.
    { apply desc_cons.
      - apply desc_snoc; [assumption|]. eapply Forall_impl; [|exact Br]. simpl; intros; lra.
      - apply Forall_app. split; [eapply Forall_impl; [|exact Br]; simpl; intros; lra | repeat constructor; lra]. }
    destruct (ivt_alt _ _ _ (legP_cont (S (S n))) D2 ltac:(discriminate) A2) as (s & Is & Zs).
    exists s. split; [|split; [|split; [|split]]].
    + pose proof (interl_len _ _ Is) as L. simpl in L. rewrite app_length, Lr in L. simpl in L. lia.
    + eapply interl_desc; eauto.
    + pose proof (interl_lt _ _ Is 1 (r ++ [-1]) eq_refl) as [F _].
      pose proof (interl_gt _ _ Is (1 :: r) (-1) eq_refl) as G. rewrite Forall_forall in *. intros x Hx. specialize (F x Hx). specialize (G x Hx). simpl in *. lra.
    + exact Zs.
    + destruct (legP_poly (S n)) as (p & Lp & Ep).
      destruct (factor_roots r p (desc_NoDup r Dr)) as (q & Lq & Eq).
      { intros a Ha. rewrite Ep. rewrite Forall_forall in Zr. now apply Zr. }
      assert (exists c, q = [c]) as (c & ->).
      { rewrite Lp, Lr in Lq. replace (S (S n) - S n)%nat with 1%nat in Lq by lia. destruct q as [|c [|? ?]]; try discriminate. eauto. }
      assert (0 < prodr r 1) as P1 by (apply prodr_pos; eapply Forall_impl; [|exact Br]; simpl; intros; lra).
      assert (0 < c) as Pc.
      { pose proof (Eq 1) as E1. rewrite Ep, legP_at_1 in E1. fold (prodr r 1) in E1. simpl in E1. destruct (Rle_lt_dec c 0) as [Hc|]; [|assumption].
        exfalso. assert (prodr r 1 * c <= 0) by (rewrite <- (Rmult_0_r (prodr r 1)); apply Rmult_le_compat_l; lra). lra. }
      apply alt_scale with (g := prodr r) (k := fun _ => c).
      * intros x _. rewrite <- Ep, Eq. fold (prodr r x). simpl. split; [ring|assumption].
      * apply interl_sign. eapply interl_inner; eauto.
Qed.

(** ** ... and hence all N roots of P_{N-1} + P_N are real and simple *)
Definition real_roots_of (f : R -> R) (l : list R) : Prop :=
  StronglySorted Rlt l /\ forall t, In t l <-> f t = 0.

Lemma desc_rev_sorted : forall l, desc l -> StronglySorted Rlt (rev l).
Proof.
  intros l; induction l as [|a l IH]; intro H; simpl; [constructor|].
  assert (desc l) as Hd by (destruct l; [exact Logic.I|apply H]). pose proof (desc_lt_all l a H) as F. specialize (IH Hd).
  assert (Forall (fun x => x < a) (rev l)) as F' by (apply Forall_rev; exact F). clear -IH F'.
  induction (rev l) as [|b m IHm]; simpl; [repeat constructor|]. inversion IH; subst. inversion F'; subst. constructor; [now apply IHm|].
  apply Forall_app. split; [assumption|repeat constructor; assumption].
Qed.
Lemma sorted_NoDup : forall l, StronglySorted Rlt l -> NoDup l.
Proof. intros l H; induction H as [|a l H IH F]; constructor; auto. intro C. rewrite Forall_forall in F. specialize (F a C). lra. Qed.

Lemma exactly_roots : forall f p N l, (forall t, peval p t = f t) -> List.length p = S N -> (exists t, f t <> 0) -> desc l -> List.length l = N ->
  Forall (fun x => f x = 0) l -> real_roots_of f (rev l).
Proof.
  intros f p N l Ep Lp (t0 & Ht0) Hd Ll F. split; [now apply desc_rev_sorted|].
  intro t. rewrite <- in_rev. split; [rewrite Forall_forall in F; apply F|]. intro Z.
  destruct (in_dec Req_EM_T t l) as [|Hn]; [assumption|exfalso]. apply Ht0. rewrite <- Ep.
  apply (too_many_roots (t :: l)).
  - constructor; [assumption|now apply desc_NoDup].
  - intros a [<-|Ha]; rewrite Ep; [assumption|]. rewrite Forall_forall in F. now apply F.
  - simpl. lia.
Qed.

Lemma lgr_roots_exist : forall N, (1 <= N)%nat -> exists l, List.length l = N /\ real_roots_of (lgr_char N) l.
Proof.
  intros [|n] HN; [lia|]. destruct (legendre_roots n) as (r & Lr & Dr & Br & Zr & Ar).
  assert (continuity (lgr_char (S n))) as Hc.
  { destruct (char_poly (S n) HN) as (p & _ & E). apply cont_ext with (f := peval p); [assumption|apply peval_cont]. }
  assert (alt (lgr_char (S n)) 1 r) as A.
  { apply alt_scale with (g := legP n) (k := fun _ => 1); [|assumption]. intros x Hx. rewrite Forall_forall in Zr.
    unfold lgr_char. rewrite (Zr x Hx). simpl Nat.sub. rewrite Nat.sub_0_r. split; [ring|lra]. }
  destruct (ivt_alt _ r 1 Hc Dr ltac:(destruct r; [discriminate|discriminate]) A) as (s & Is & Zs).
  assert (Forall (fun x => x > -1) s) as G.
  { destruct (exists_last (l := r)) as (r' & z & E); [destruct r; discriminate|].
    pose proof (interl_gt _ _ Is r' z E) as G. assert (-1 < z < 1) as Hz. { rewrite Forall_forall in Br. apply Br. rewrite E. apply in_or_app; simpl; auto. }
    eapply Forall_impl; [|exact G]. simpl; intros; lra. }
  destruct (char_poly (S n) HN) as (p & Lp & Ep).
  exists (rev (s ++ [-1])). split.
  - rewrite rev_length, app_length. pose proof (interl_len _ _ Is). simpl. lia.
  - apply exactly_roots with (p := p) (N := S n); auto.
    + exists 1. rewrite char_at_1. lra.
    + apply desc_snoc; [eapply interl_desc; eauto|assumption].
    + rewrite app_length. pose proof (interl_len _ _ Is). simpl. lia.
    + apply Forall_app. split; [assumption|]. repeat constructor. now apply char_at_m1.
Qed.
Lemma lg_roots_exist : forall N, (1 <= N)%nat -> exists l, List.length l = N /\ real_roots_of (legP N) l /\ Forall (fun x => -1 < x < 1) l.
Proof.
  intros [|n] HN; [lia|]. destruct (legendre_roots n) as (r & Lr & Dr & Br & Zr & Ar). destruct (legP_poly (S n)) as (p & Lp & Ep).
  exists (rev r). split; [now rewrite rev_length|]. split; [|now apply Forall_rev].
  apply exactly_roots with (p := p) (N := S n); auto. exists 1. rewrite legP_at_1. lra.
Qed.

(** the ascending list of roots is unique *)
Lemma real_roots_unique : forall f l m, real_roots_of f l -> real_roots_of f m -> l = m.
Proof.
  intros f l m [Sl Il] [Sm Im]. assert (forall t, In t l <-> In t m) as H by (intro t; rewrite Il, Im; tauto). clear Il Im f.
  revert m Sm H; induction Sl as [|a l Sl IH Fl]; intros m Sm H.
  - destruct m as [|b m]; [reflexivity|]. exfalso. apply (H b). simpl; auto.
  - destruct Sm as [|b m Sm Fm]; [exfalso; apply (H a); simpl; auto|].
    rewrite Forall_forall in Fl, Fm.
    assert (a = b) as ->.
    { destruct (proj1 (H a) (or_introl eq_refl)) as [|Ha]; [congruence|]. destruct (proj2 (H b) (or_introl eq_refl)) as [|Hb]; [congruence|].
      specialize (Fl b Hb). specialize (Fm a Ha). lra. }
    f_equal. apply IH; [assumption|]. intro t. split; intro Ht.
    + destruct (proj1 (H t) (or_intror Ht)) as [->|]; [|assumption]. specialize (Fl t Ht). lra.
    + destruct (proj2 (H t) (or_intror Ht)) as [->|]; [|assumption]. specialize (Fm t Ht). lra.
Qed.
