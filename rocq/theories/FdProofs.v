(** Fornberg's recursion computes the derivatives of the Lagrange basis polynomials. *)
From Verif Require Import Base RBase CollocModel CollocProofs CollocProps FdModel FdSpec.

(** ** iterated formal derivatives *)
Fixpoint dn (m : nat) (p : list R) : list R := match m with O => p | S k => pdiff (dn k p) end.
Lemma pdiff_ext : forall p q, (forall t, peval p t = peval q t) -> forall t, peval (pdiff p) t = peval (pdiff q) t.
Proof. intros p q E t. eapply uniqueness_limite; [apply peval_deriv|]. apply dlim_ext with (f := peval q); [intro; symmetry; apply E|apply peval_deriv]. Qed.
Lemma dn_ext : forall m p q, (forall t, peval p t = peval q t) -> forall t, peval (dn m p) t = peval (dn m q) t.
Proof. induction m as [|m IH]; intros p q E t; [apply E|]. cbn [dn]. apply pdiff_ext. intro. now apply IH. Qed.
Lemma pdiff_padd : forall p q t, peval (pdiff (padd p q)) t = peval (pdiff p) t + peval (pdiff q) t.
Proof.
  intros. eapply uniqueness_limite; [apply peval_deriv|]. apply dlim_ext with (f := fun t => peval p t + peval q t); [intro; symmetry; apply peval_padd|].
  apply dlim_plus; apply peval_deriv.
Qed.
Lemma pdiff_pscale : forall k p t, peval (pdiff (pscale k p)) t = k * peval (pdiff p) t.
Proof.
  intros. eapply uniqueness_limite; [apply peval_deriv|]. apply dlim_ext with (f := fun t => k * peval p t); [intro; symmetry; apply peval_pscale|]. apply dlim_scal, peval_deriv.
Qed.
Lemma pdiff_lin : forall p c0 c1 t, peval (pdiff (pmul_lin p c0 c1)) t = peval (padd (pmul_lin (pdiff p) c0 c1) (pscale c1 p)) t.
Proof.
  intros. rewrite peval_padd, peval_pmul_lin, peval_pscale. eapply uniqueness_limite; [apply peval_deriv|].
  apply dlim_ext with (f := fun t => peval p t * (c0 + c1 * t)); [intro; symmetry; apply peval_pmul_lin|].
  eapply dlim_eq; [|apply dlim_mult; [apply peval_deriv|apply dlim_ext with (f := fun t => c1 * t + c0); [intro; ring|apply dlim_lin]]]. cbv beta. ring.
Qed.
Lemma dn_S : forall m p, dn (S m) p = dn m (pdiff p).
Proof. induction m as [|m IH]; intro p; [reflexivity|]. change (dn (S (S m)) p) with (pdiff (dn (S m) p)). rewrite IH. reflexivity. Qed.
Lemma dn_padd : forall m p q t, peval (dn m (padd p q)) t = peval (dn m p) t + peval (dn m q) t.
Proof. induction m as [|m IH]; intros; [apply peval_padd|]. rewrite !dn_S. rewrite (dn_ext m (pdiff (padd p q)) (padd (pdiff p) (pdiff q))); [apply IH|]. intro u. now rewrite pdiff_padd, peval_padd. Qed.
Lemma dn_pscale : forall m k p t, peval (dn m (pscale k p)) t = k * peval (dn m p) t.
Proof. induction m as [|m IH]; intros; [apply peval_pscale|]. rewrite !dn_S. rewrite (dn_ext m (pdiff (pscale k p)) (pscale k (pdiff p))); [apply IH|]. intro u. now rewrite pdiff_pscale, peval_pscale. Qed.
(** Leibniz' rule for a linear factor *)
Lemma dn_lin : forall m p c0 c1 t, peval (dn m (pmul_lin p c0 c1)) t = (c0 + c1 * t) * peval (dn m p) t + INR m * c1 * peval (dn (m - 1) p) t.
Proof.
  induction m as [|m IH]; intros p c0 c1 t; [cbn [dn INR Nat.sub]; rewrite peval_pmul_lin; ring|].
  rewrite dn_S. rewrite (dn_ext m _ _ (pdiff_lin p c0 c1)). rewrite dn_padd, IH, dn_pscale. rewrite (dn_S m p). replace (S m - 1)%nat with m by lia. rewrite S_INR.
  destruct m as [|m]; [cbn [INR]; ring|]. replace (S m - 1)%nat with m by lia. rewrite <- (dn_S m p). ring.
Qed.
Lemma dn_len : forall m p, List.length (dn m p) = (List.length p - m)%nat.
Proof. induction m as [|m IH]; intro p; [cbn; lia|]. cbn [dn]. rewrite pdiff_len. rewrite IH. lia. Qed.
Lemma dn_zero : forall m p t, (List.length p <= m)%nat -> peval (dn m p) t = 0.
Proof. intros m p t H. assert (dn m p = []) as -> by (apply length_zero_iff_nil; rewrite dn_len; lia). reflexivity. Qed.
Lemma dn_nth : forall m p, nth_derivative m (peval p) (peval (dn m p)).
Proof. intros m p. exists (fun i => peval (dn i p)). split; [reflexivity|]. split; [|reflexivity]. intros i t _. apply peval_deriv. Qed.
Lemma nth_derivative_unique : forall m f g h, nth_derivative m f g -> nth_derivative m f h -> forall t, g t = h t.
Proof.
  intros m f g h (gs & G0 & G1 & G2) (hs & H0 & H1 & H2) t. rewrite <- G2, <- H2.
  assert (forall i, (i <= m)%nat -> forall u, gs i u = hs i u) as K.
  { induction i as [|i IH]; intros Hi u; [now rewrite G0, H0|]. eapply uniqueness_limite; [apply G1; lia|]. apply dlim_ext with (f := hs i); [intro; symmetry; apply IH; lia|apply H1; lia]. }
  now apply K.
Qed.

(** ** the basis polynomials *)
Section B.
Variables (x : list R) (x0 : R) (M : nat).
Hypothesis Hn : NoDup x.
Definition c1_of (n : nat) : R := fold_left (fun c v => c * (vget n x - vget v x)) (seq 0 n) 1.
Fixpoint P (n v : nat) : list R :=
  match n with
  | O => [1]
  | S k => if Nat.eqb v (S k) then pscale (c1_of k / c1_of (S k)) (pmul_lin (P k k) (- vget k x) 1)
           else pmul_lin (P k v) (- vget (S k) x / (vget v x - vget (S k) x)) (1 / (vget v x - vget (S k) x))
  end.
Lemma P_ne : forall n v, P n v <> [].
Proof using. destruct n as [|n]; intro v; cbn [P]; [discriminate|]. destruct (Nat.eqb v (S n)); unfold pmul_lin, pscale; destruct (P n _); cbn; discriminate. Qed.
Lemma P_len : forall n v, List.length (P n v) = S n.
Proof using.
  induction n as [|n IH]; intro v; [reflexivity|]. cbn [P]. destruct (Nat.eqb v (S n)); unfold pscale; rewrite ?map_length, pmul_lin_length by apply P_ne; now rewrite IH.
Qed.
Lemma prod_ne : forall n l c, c <> 0 -> (forall v, In v l -> vget n x <> vget v x) -> fold_left (fun c v => c * (vget n x - vget v x)) l c <> 0.
Proof using. intros n l. induction l as [|v l IH]; intros c Hc H; [exact Hc|]. cbn [fold_left]. apply IH; [|intros; apply H; now right]. apply Rmult_integral_contrapositive_currified; [exact Hc|]. specialize (H v (or_introl eq_refl)). lra. Qed.
Lemma ne : forall i j, (i < List.length x)%nat -> (j < List.length x)%nat -> i <> j -> vget i x <> vget j x.
Proof using Hn. intros i j Hi Hj H E. apply H. now apply (vget_inj x). Qed.
Lemma c1_ne : forall n, (n < List.length x)%nat -> c1_of n <> 0.
Proof using Hn. intros n H. apply prod_ne; [lra|]. intros v Hv. apply in_seq in Hv. apply ne; lia. Qed.
Definition prodt (n : nat) (t : R) : R := fold_left (fun c v => c * (t - vget v x)) (seq 0 n) 1.
Lemma prodt_S : forall n t, prodt (S n) t = prodt n t * (t - vget n x).
Proof using. intros. unfold prodt. rewrite seq_S, fold_left_app. reflexivity. Qed.
Lemma P_diag : forall n t, (n < List.length x)%nat -> peval (P n n) t * c1_of n = prodt n t.
Proof using Hn.
  induction n as [|n IH]; intros t H; [unfold c1_of, prodt; cbn; ring|]. cbn [P]. rewrite Nat.eqb_refl. rewrite peval_pscale, peval_pmul_lin, prodt_S, <- IH by lia.
  pose proof (c1_ne (S n) H). field. assumption.
Qed.
Lemma P_kron : forall n v k, (n < List.length x)%nat -> (v <= n)%nat -> (k <= n)%nat -> peval (P n v) (vget k x) = if Nat.eqb v k then 1 else 0.
Proof using Hn.
  induction n as [|n IH]; intros v k H Hv Hk. { assert (v = 0)%nat as -> by lia. assert (k = 0)%nat as -> by lia. cbn. ring. }
  destruct (Nat.eq_dec v (S n)) as [->|Ev].
  - destruct (Nat.eqb_spec (S n) k) as [<-|Ek].
    + pose proof (P_diag (S n) (vget (S n) x) H) as E. change (prodt (S n) (vget (S n) x)) with (c1_of (S n)) in E. pose proof (c1_ne (S n) H). apply Rmult_eq_reg_r with (c1_of (S n)); [lra|assumption].
    + cbn [P]. rewrite Nat.eqb_refl, peval_pscale, peval_pmul_lin, IH by lia. destruct (Nat.eqb_spec n k) as [->|]; ring.
  - cbn [P]. apply Nat.eqb_neq in Ev as Ev'. rewrite Ev', peval_pmul_lin. destruct (Nat.eq_dec k (S n)) as [->|Ek].
    + rewrite Ev'. pose proof (ne v (S n) ltac:(lia) H Ev). field. lra.
    + rewrite IH by lia. destruct (Nat.eqb_spec v k) as [->|]; [|ring]. pose proof (ne k (S n) ltac:(lia) H Ek). field. lra.
Qed.
(** Lagrange interpolation with these polynomials *)
Definition psum (f : nat -> list R) (n : nat) : list R := fold_left (fun p j => padd p (f j)) (seq 0 n) [].
Lemma dn_psum : forall m f n t, peval (dn m (psum f n)) t = rsum (map (fun j => peval (dn m (f j)) t) (seq 0 n)).
Proof using.
  intros m f n t. unfold psum. assert (forall l p, peval (dn m (fold_left (fun p j => padd p (f j)) l p)) t = peval (dn m p) t + rsum (map (fun j => peval (dn m (f j)) t) l)) as K.
  { induction l as [|j l IH]; intro p; cbn [fold_left map rsum]; [ring|]. rewrite IH, dn_padd. ring. }
  rewrite K. rewrite (dn_zero m []) by (cbn; lia). ring.
Qed.
Lemma interp_P : forall p, (List.length p <= List.length x)%nat -> x <> [] ->
  forall t, peval (psum (fun v => pscale (peval p (vget v x)) (P (List.length x - 1) v)) (List.length x)) t = peval p t.
Proof using Hn.
  intros p Hp Hx t. set (N := (List.length x - 1)%nat). assert (0 < List.length x)%nat as HL by (destruct x; [congruence|cbn; lia]).
  set (s := psum _ _). assert (peval (padd s (pscale (-1) p)) t = 0) as Z.
  { apply (too_many_roots x); [assumption| |].
    - intros a Ha. destruct (In_nth _ _ 0 Ha) as (k & Hk & <-). fold (vget k x). rewrite peval_padd, peval_pscale. unfold s. change (psum _ _) with (dn 0 (psum (fun v => pscale (peval p (vget v x)) (P N v)) (List.length x))). rewrite dn_psum. cbn [dn].
      rewrite (rsum_ext _ _ (fun j => if Nat.eqb j k then peval p (vget k x) else 0)).
      + rewrite (rsum_single (fun j => if Nat.eqb j k then peval p (vget k x) else 0) k); [rewrite Nat.eqb_refl; ring|lia|]. intros j Hj. apply Nat.eqb_neq in Hj. now rewrite Hj.
      + intros j Hj. apply in_seq in Hj. rewrite peval_pscale, P_kron by (unfold N; lia). destruct (Nat.eqb_spec j k) as [->|]; ring.
    - rewrite padd_length. unfold pscale at 1. rewrite map_length. assert (List.length s <= List.length x)%nat; [|lia]. unfold s, psum.
      apply fold_padd_len; [cbn; lia|]. apply Forall_forall. intros j _. unfold pscale. rewrite map_length, P_len. unfold N. lia. }
  rewrite peval_padd, peval_pscale in Z. lra.
Qed.

(** ** the table *)
Lemma fold_cset : forall (F : cube -> nat -> R) n v ms d, (forall e e' m, (forall a b, e a (n - 1)%nat b = e' a (n - 1)%nat b) -> F e m = F e' m) -> (1 <= n)%nat ->
  forall m' n' v', fold_left (fun d m => cset d m n v (F d m)) ms d m' n' v' = if (existsb (Nat.eqb m') ms && Nat.eqb n' n && Nat.eqb v' v)%bool then F d m' else d m' n' v'.
Proof using.
  intros F n v ms. induction ms as [|m ms IH]; intros d HF Hn1 m' n' v'; [reflexivity|]. cbn [fold_left existsb]. rewrite IH by assumption.
  assert (F (cset d m n v (F d m)) m' = F d m') as ->.
  { apply HF. intros a b. unfold cset. replace (Nat.eqb (n - 1) n) with false by (symmetry; apply Nat.eqb_neq; lia). now rewrite andb_false_r. }
  unfold cset. destruct (existsb (Nat.eqb m') ms); [rewrite orb_true_r; destruct (Nat.eqb n' n), (Nat.eqb v' v); cbn [andb]; try reflexivity; now rewrite ?andb_false_r|].
  rewrite orb_false_r. cbn [andb]. destruct (Nat.eqb_spec m' m) as [->|]; reflexivity.
Qed.
Lemma existsb_seq : forall m k, existsb (Nat.eqb m) (seq 0 k) = Nat.ltb m k.
Proof using.
  intros m k. destruct (Nat.ltb_spec m k).
  - apply existsb_exists. exists m. split; [apply in_seq; lia|apply Nat.eqb_refl].
  - destruct (existsb (Nat.eqb m) (seq 0 k)) eqn:E; [|reflexivity]. apply existsb_exists in E as (j & Hj & Ej). apply in_seq in Hj. apply Nat.eqb_eq in Ej. lia.
Qed.
Notation T m n v := (peval (dn m (P n v)) x0).
Definition good (d : cube) (n v : nat) : Prop := forall m, (m <= M)%nat -> d m n v = T m n v.
(** one step for an old grid point *)
Lemma inner_good : forall n v d, (S n < List.length x)%nat -> (v <= n)%nat -> good d n v -> (forall m, d m (S n) v = 0) ->
  let d' := fd_inner x x0 M (S n) v (vget (S n) x - vget v x) d in
  good d' (S n) v /\ forall m' n' v', (n' <> S n \/ v' <> v) -> d' m' n' v' = d m' n' v'.
Proof using Hn.
  intros n v d H Hv G Z d'. unfold d', fd_inner.
  set (F := fun (d : cube) m => ((vget (S n) x - x0) * d m (S n - 1)%nat v - INR m * d (pred_idx M m) (S n - 1)%nat v) / (vget (S n) x - vget v x)).
  assert (forall e e' m, (forall a b, e a (S n - 1)%nat b = e' a (S n - 1)%nat b) -> F e m = F e' m) as HF by (intros e e' m E; unfold F; now rewrite !E).
  pose proof (fold_cset F (S n) v (seq 0 (Nat.min (S n) M + 1)) d HF ltac:(lia)) as K. unfold F in K at 1. split.
  - intros m Hm. rewrite K. rewrite !Nat.eqb_refl, existsb_seq, !andb_true_r. assert (vget v x <> vget (S n) x) as Hne by (apply ne; lia).
    destruct (Nat.ltb_spec m (Nat.min (S n) M + 1)).
    + unfold F. replace (S n - 1)%nat with n by lia. cbn [P]. replace (Nat.eqb v (S n)) with false by (symmetry; apply Nat.eqb_neq; lia). rewrite dn_lin. rewrite G by assumption.
      destruct m as [|m]; [cbn [INR]; field; lra|]. cbn [pred_idx]. rewrite G by lia. replace (S m - 1)%nat with m by lia. field. lra.
    + rewrite Z. symmetry. apply dn_zero. rewrite P_len. lia.
  - intros m' n' v' Hd. rewrite K. destruct (Nat.eqb_spec n' (S n)), (Nat.eqb_spec v' v); rewrite ?andb_false_r; try reflexivity. lia.
Qed.
Lemma v_loop : forall n k d, (S n < List.length x)%nat -> (k <= S n)%nat -> (forall v, (v <= n)%nat -> good d n v) -> (forall m v, d m (S n) v = 0) ->
  let st := fold_left (fun st v => let c3 := vget (S n) x - vget v x in let c2 := snd st * c3 in (fd_inner x x0 M (S n) v c3 (fst st), c2)) (seq 0 k) (d, 1) in
  snd st = fold_left (fun c v => c * (vget (S n) x - vget v x)) (seq 0 k) 1 /\ (forall v, (v < k)%nat -> good (fst st) (S n) v) /\
  (forall m v, (k <= v)%nat -> fst st m (S n) v = 0) /\ (forall m n' v, n' <> S n -> fst st m n' v = d m n' v).
Proof using Hn.
  intros n k d H Hk G Z. induction k as [|k IH]; [cbn; repeat split; auto; intros; lia|].
  rewrite seq_S, !fold_left_app. cbn [fold_left Nat.add]. set (st := fold_left _ (seq 0 k) (d, 1)) in *. destruct IH as (E & A & B & C); [lia|]. cbn [fst snd].
  destruct (inner_good n k (fst st)) as [G' U]; [assumption|lia|intros m Hm; rewrite C by lia; apply G; [lia|assumption]|intro; apply B; lia|].
  split; [now rewrite E|]. split; [|split].
  - intros v Hv. destruct (Nat.eq_dec v k) as [->|Ev]; [exact G'|]. intros m Hm. rewrite U by auto. apply A; [lia|assumption].
  - intros m v Hv. rewrite U by (right; lia). apply B. lia.
  - intros m n' v Hn'. rewrite U by auto. now apply C.
Qed.
Definition table_ok (d : cube) (n : nat) : Prop := (forall n' v, (n' <= n)%nat -> (v <= n')%nat -> good d n' v) /\ (forall m n' v, (n < n')%nat -> d m n' v = 0).
Lemma step_ok : forall n d, (S n < List.length x)%nat -> table_ok d n ->
  let st := fd_step x x0 M (d, c1_of n) (S n) in table_ok (fst st) (S n) /\ snd st = c1_of (S n).
Proof using Hn.
  intros n d H [G Z]. unfold fd_step. unfold fd_v. destruct (v_loop n (S n) d H (Nat.le_refl _)) as (E & A & B & C); [intros; apply G; lia|intros; apply Z; lia|].
  cbn [fst snd]. destruct (fold_left _ (seq 0 (S n)) (d, 1)) as [d' c2]. cbn [fst snd] in *. fold (c1_of (S n)) in E. subst c2. split; [|reflexivity].
  unfold fd_diag. set (F := fun (d : cube) m => c1_of n / c1_of (S n) * (INR m * d (pred_idx M m) (S n - 1)%nat (S n - 1)%nat - (vget (S n - 1) x - x0) * d m (S n - 1)%nat (S n - 1)%nat)).
  assert (forall e e' m, (forall a b, e a (S n - 1)%nat b = e' a (S n - 1)%nat b) -> F e m = F e' m) as HF by (intros e e' m Ee; unfold F; now rewrite !Ee).
  pose proof (fold_cset F (S n) (S n) (seq 0 (Nat.min (S n) M + 1)) d' HF ltac:(lia)) as K. unfold F in K at 1. split.
  - intros n' v Hn' Hv m Hm. rewrite K, existsb_seq. destruct (Nat.eqb_spec n' (S n)) as [->|En].
    + destruct (Nat.eqb_spec v (S n)) as [->|Ev].
      * rewrite !andb_true_r. destruct (Nat.ltb_spec m (Nat.min (S n) M + 1)).
        -- unfold F. replace (S n - 1)%nat with n by lia. cbn [P]. rewrite Nat.eqb_refl. rewrite dn_pscale, dn_lin. rewrite !C by lia.
           rewrite (G n n (Nat.le_refl _) (Nat.le_refl _) m Hm). destruct m as [|m]; [cbn [INR]; ring|]. cbn [pred_idx]. rewrite (G n n (Nat.le_refl _) (Nat.le_refl _) m ltac:(lia)). replace (S m - 1)%nat with m by lia. ring.
        -- rewrite B by lia. symmetry. apply dn_zero. rewrite P_len. lia.
      * rewrite andb_false_r. apply A; [lia|assumption].
    + rewrite andb_false_r. cbn [andb]. rewrite C by assumption. apply G; [lia|assumption|assumption].
  - intros m n' v Hn'. rewrite K. destruct (Nat.eqb_spec n' (S n)); [lia|]. rewrite andb_false_r. cbn [andb]. rewrite C by lia. apply Z. lia.
Qed.
Lemma table_done : forall n, (n < List.length x)%nat -> let st := fold_left (fd_step x x0 M) (seq 1 n) (fd_init, 1) in table_ok (fst st) n /\ snd st = c1_of n.
Proof using Hn.
  induction n as [|n IH]; intro H.
  - cbn [seq fold_left fst snd]. split; [|reflexivity]. split.
    + intros n' v Hn' Hv m Hm. assert (n' = 0)%nat as -> by lia. assert (v = 0)%nat as -> by lia. unfold fd_init, cset. cbn [Nat.eqb andb P]. destruct m as [|m]; [cbn; ring|]. cbn [Nat.eqb andb]. symmetry. apply dn_zero. cbn. lia.
    + intros m n' v Hn'. unfold fd_init, cset. destruct n'; [lia|]. cbn [Nat.eqb]. now rewrite andb_false_r.
  - destruct IH as [T1 T2]; [lia|]. cbn [fst snd] in *. rewrite seq_S, fold_left_app. cbn [fold_left Nat.add]. destruct (fold_left (fd_step x x0 M) (seq 1 n) (fd_init, 1)) as [d c1]. cbn [fst snd] in *. subst c1. now apply step_ok.
Qed.
Lemma weights_are : forall v, (v < List.length x)%nat -> fd_table x x0 M M (List.length x - 1)%nat v = T M (List.length x - 1)%nat v.
Proof using Hn. intros v Hv. unfold fd_table. destruct (table_done (List.length x - 1)) as [[G _] _]; [lia|]. apply G; lia. Qed.
End B.
