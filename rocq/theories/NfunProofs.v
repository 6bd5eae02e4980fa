(** Proofs for C67 *)
From Coq Require FinFun.
From Verif Require Import Base RBase NfunModel NfunSpec.

Section N.
Variable At : Type.
Variable obj : At -> list R -> R.
Variable con : At -> list R -> list R.
Variable num_dec : At -> result nat.
Variable grad : (list R -> R) -> list R -> nat -> R.
Variable jac : (list R -> list R) -> list R -> nat -> nat -> R.
Variable hess : (list R -> R) -> list R -> nat -> nat -> R.
Local Notation stp := (step At obj con num_dec grad jac hess).
Local Notation rn := (run At obj con num_dec grad jac hess).

Fixpoint final (o : nobj At) (h : list (act At)) : nobj At := match h with [] => o | a :: r => final (fst (stp o a)) r end.

Lemma run_app : forall h1 h2 o, rn o (h1 ++ h2) = rn o h1 ++ rn (final o h1) h2.
Proof. induction h1 as [|a h1 IH]; intros h2 o; [reflexivity|]. cbn. rewrite IH. reflexivity. Qed.
Lemma run_length : forall h o, List.length (rn o h) = List.length h.
Proof. induction h as [|a h IH]; intros o; [reflexivity|]. cbn. rewrite IH. reflexivity. Qed.
Lemma final_app : forall h1 h2 o, final o (h1 ++ h2) = final (final o h1) h2.
Proof. induction h1 as [|a h1 IH]; intros h2 o; [reflexivity|]. cbn. apply IH. Qed.
Lemma run_last : forall h a o, nth_error (rn o (h ++ [a])) (List.length h) = Some (snd (stp (final o h) a)).
Proof. intros h a o. rewrite run_app, nth_error_app2 by (rewrite run_length; lia). rewrite run_length, Nat.sub_diag. reflexivity. Qed.

Lemma final_at : forall h o, n_at At (final o h) = attrs (n_at At o) h.
Proof.
  induction h as [|a h IH]; intros o; [reflexivity|]. cbn [final]. rewrite IH.
  destruct a as [g|x|x|x|x| |x lam f|]; cbn [step attrs]; try reflexivity.
  - destruct (trace_of _ _ _); reflexivity.
  - destruct (trace_of _ _ _); reflexivity.
  - destruct (trace_of _ _ _); [reflexivity|]. destruct (Nat.eqb _ _); [|reflexivity]. destruct (num_dec _); reflexivity.
Qed.

(** the trace used by a gradient *)
Lemma gradient_trace : forall n h o,
  match trace_of At (KGrad n) (n_traces At (final o h)) with Some s => s | None => n_at At (final o h) end =
  match trace_of At (KGrad n) (n_traces At o) with Some s => s | None => first_gradient n (n_at At o) h end.
Proof.
  intros n. induction h as [|a h IH]; intros o; [reflexivity|]. cbn [final]. rewrite IH. clear IH.
  destruct a as [g|x|x|x|x| |x lam f|]; cbn [step first_gradient]; try reflexivity.
  - destruct (trace_of At (KGrad (List.length x)) (n_traces At o)) eqn:T; cbn.
    + destruct (trace_of At (KGrad n) (n_traces At o)) eqn:T'; [reflexivity|].
      destruct (Nat.eqb_spec (List.length x) n); [congruence|]. reflexivity.
    + rewrite (Nat.eqb_sym n). destruct (Nat.eqb_spec (List.length x) n) as [E|E]; [|reflexivity].
      subst n. rewrite T. reflexivity.
  - destruct (trace_of At (KJac _) _); reflexivity.
  - destruct (trace_of At (KHess _ _) _); [reflexivity|]. destruct (Nat.eqb _ _); [|reflexivity].
    destruct (num_dec _); reflexivity.
Qed.

Lemma jacobian_trace : forall n h o,
  match trace_of At (KJac n) (n_traces At (final o h)) with Some s => s | None => n_at At (final o h) end =
  match trace_of At (KJac n) (n_traces At o) with Some s => s | None => first_jacobian n (n_at At o) h end.
Proof.
  intros n. induction h as [|a h IH]; intros o; [reflexivity|]. cbn [final]. rewrite IH. clear IH.
  destruct a as [g|x|x|x|x| |x lam f|]; cbn [step first_jacobian]; try reflexivity.
  - destruct (trace_of At (KGrad _) _); reflexivity.
  - destruct (trace_of At (KJac (List.length x)) (n_traces At o)) eqn:T; cbn.
    + destruct (trace_of At (KJac n) (n_traces At o)) eqn:T'; [reflexivity|].
      destruct (Nat.eqb_spec (List.length x) n); [congruence|]. reflexivity.
    + rewrite (Nat.eqb_sym n). destruct (Nat.eqb_spec (List.length x) n) as [E|E]; [|reflexivity].
      subst n. rewrite T. reflexivity.
  - destruct (trace_of At (KHess _ _) _); [reflexivity|]. destruct (Nat.eqb _ _); [|reflexivity].
    destruct (num_dec _); reflexivity.
Qed.

Lemma hessian_trace : forall n m h o,
  trace_of At (KHess n m) (n_traces At (final o h)) =
  match trace_of At (KHess n m) (n_traces At o) with Some s => Some s | None => first_hessian At con num_dec n m (n_at At o) h end.
Proof.
  intros n m. induction h as [|a h IH]; intros o.
  - cbn. destruct (trace_of _ _ _); reflexivity.
  - cbn [final]. rewrite IH. clear IH.
    destruct a as [g|x|x|x|x| |x lam f|]; cbn [step first_hessian]; try reflexivity.
    + destruct (trace_of At (KGrad _) _); reflexivity.
    + destruct (trace_of At (KJac _) _); reflexivity.
    + destruct (trace_of At (KHess (List.length x) (List.length lam)) (n_traces At o)) eqn:T; cbn [fst n_traces].
      * destruct (trace_of At (KHess n m) (n_traces At o)) eqn:T'; [reflexivity|].
        destruct (Nat.eqb_spec (List.length x) n); [|reflexivity]. destruct (Nat.eqb_spec (List.length lam) m); [|reflexivity].
        congruence.
      * destruct (evaluable_dec At con num_dec (n_at At o) x lam) as [[E [nd D]]|E].
        -- rewrite (proj2 (Nat.eqb_eq _ _) E), D. cbn.
           rewrite (Nat.eqb_sym n), (Nat.eqb_sym m).
           destruct (Nat.eqb_spec (List.length x) n); [|reflexivity]. destruct (Nat.eqb_spec (List.length lam) m); [|reflexivity].
           subst n m. cbn. rewrite T. reflexivity.
        -- assert (forall o', fst (if Nat.eqb (List.length lam) (List.length (con (n_at At o) x))
               then match num_dec (n_at At o) with
                    | Ok n0 => (with_trace At (with_last At o (LTracer)) (KHess (List.length x) (List.length lam)) (n_at At o),
                                Ok (VVec (hessian_at At obj con hess (n_at At o) n0 x lam f)))
                    | Raise e => (with_last At o LTracer, Raise e) end
               else (with_last At o LTracer, Raise TypeError)) = o' -> o' = with_last At o LTracer) as K.
           { intros o' <-. destruct (Nat.eqb_spec (List.length lam) (List.length (con (n_at At o) x))) as [F|F]; [|reflexivity].
             destruct (num_dec (n_at At o)) eqn:D; [|reflexivity]. exfalso. apply E. split; [exact F|eauto]. }
           rewrite (K _ eq_refl). cbn.
           destruct (trace_of At (KHess n m) (n_traces At o)); [reflexivity|].
           destruct (Nat.eqb _ n && Nat.eqb _ m)%bool; reflexivity.
Qed.

(** upper triangle *)
Lemma triu_combine : forall n, combine (triu_rows n) (triu_cols n) = flat_map (fun i => map (pair i) (seq i (n - i))) (seq 0 n).
Proof.
  intros n. unfold triu_rows, triu_cols. induction (seq 0 n) as [|i l IH]; [reflexivity|]. cbn [flat_map].
  assert (forall (u : list nat) v w, combine (map (fun _ => i) u ++ v) (u ++ w) = map (pair i) u ++ combine v w) as K
    by (induction u as [|a u IHu]; intros v w; [reflexivity|]; cbn; rewrite IHu; reflexivity).
  rewrite K, IH. reflexivity.
Qed.
Lemma triu_lengths : forall n, List.length (triu_rows n) = List.length (triu_cols n).
Proof.
  intros n. unfold triu_rows, triu_cols. induction (seq 0 n) as [|i l IH]; [reflexivity|]. cbn [flat_map].
  rewrite !app_length, map_length, IH. reflexivity.
Qed.
Lemma triu_in : forall n i j, In (i, j) (combine (triu_rows n) (triu_cols n)) <-> (i <= j < n)%nat.
Proof.
  intros n i j. rewrite triu_combine, in_flat_map. split.
  - intros [k [K H]]. apply in_map_iff in H as [j' [E H]]. injection E as <- <-. apply in_seq in H. apply in_seq in K. lia.
  - intros H. exists i. split; [apply in_seq; lia|]. apply in_map. apply in_seq. lia.
Qed.
Lemma nodup_app : forall {B} (l1 l2 : list B), NoDup l1 -> NoDup l2 -> (forall b, In b l1 -> In b l2 -> False) -> NoDup (l1 ++ l2).
Proof.
  induction l1 as [|a l1 IH]; intros l2 N1 N2 D; [exact N2|]. inversion N1 as [|? ? Na Nl]; subst. cbn. constructor.
  - rewrite in_app_iff. intros [K|K]; [exact (Na K)|]. apply (D a); cbn; auto.
  - apply IH; auto. intros b K1 K2. apply (D b); cbn; auto.
Qed.
Lemma triu_nodup : forall n, NoDup (combine (triu_rows n) (triu_cols n)).
Proof.
  intros n. rewrite triu_combine. assert (NoDup (seq 0 n)) as N by apply seq_NoDup.
  induction (seq 0 n) as [|i l IH]; [constructor|]. inversion N as [|? ? Ni Nl]; subst. cbn [flat_map].
  apply nodup_app; [|apply IH, Nl|].
  - apply FinFun.Injective_map_NoDup; [intros a b E; congruence|apply seq_NoDup].
  - intros [a b] K1 K2. apply in_map_iff in K1 as [j [E _]]. injection E as <- <-.
    apply in_flat_map in K2 as [k [K K2]]. apply in_map_iff in K2 as [j' [E _]]. injection E as <- <-. exact (Ni K).
Qed.
Lemma triu_lt : forall n p i j, nth_error (triu_rows n) p = Some i -> nth_error (triu_cols n) p = Some j -> (i <= j < n)%nat.
Proof.
  intros n p i j Hi Hj. apply triu_in. apply nth_error_In with p.
  revert Hi Hj. generalize (triu_rows n) (triu_cols n). clear n. induction p as [|p IH]; intros [|a l] [|b l']; cbn; try discriminate.
  - congruence.
  - apply IH.
Qed.

Lemma map2_nth_error : forall {A B C} (f : A -> B -> C) l l' p a b, nth_error l p = Some a -> nth_error l' p = Some b ->
  nth_error (map2 f l l') p = Some (f a b).
Proof.
  intros A B C f. induction l as [|x l IH]; intros [|y l'] [|p] a b; cbn; try discriminate.
  - congruence.
  - apply IH.
Qed.

Lemma hessian_at_nth : forall s x lam f p i j, nth_error (triu_rows (List.length x)) p = Some i -> nth_error (triu_cols (List.length x)) p = Some j ->
  nth_error (hessian_at At obj con hess s (List.length x) x lam f) p = Some (hess (fun y => f * obj s y + vdot lam (con s y)) x i j).
Proof.
  intros s x lam f p i j Hi Hj. pose proof (triu_lt _ _ _ _ Hi Hj) as L. unfold hessian_at.
  rewrite (map2_nth_error _ _ _ _ _ _ Hi Hj). unfold clamp. rewrite !Nat.min_l by lia. reflexivity.
Qed.

Lemma map2_length_eq : forall {A B C} (f : A -> B -> C) l l', List.length l = List.length l' -> List.length (map2 f l l') = List.length l.
Proof. intros A B C f. induction l as [|a l IH]; intros [|b l'] E; cbn in *; try discriminate; auto. Qed.

(** the last iterate *)
Definition quiet (o : nobj At) (a : act At) : bool :=
  match a with
  | Objective _ => false
  | Hessian x lam _ => match trace_of At (KHess (List.length x) (List.length lam)) (n_traces At o) with Some _ => true | None => false end
  | _ => true
  end.
Lemma quiet_last : forall a o, quiet o a = true -> n_last At (fst (stp o a)) = n_last At o.
Proof.
  intros [g|x|x|x|x| |x lam f|] o Q; cbn [step quiet] in *; try reflexivity; try discriminate Q.
  - destruct (trace_of _ _ _); reflexivity.
  - destruct (trace_of _ _ _); reflexivity.
  - destruct (trace_of _ _ _); [reflexivity|discriminate].
Qed.
Lemma trace_keep : forall a o k s, trace_of At k (n_traces At o) = Some s -> trace_of At k (n_traces At (fst (stp o a))) <> None.
Proof.
  intros a o k s T.
  assert (forall k' s', trace_of At k ((k', s') :: n_traces At o) <> None) as C.
  { intros k' s'. cbn. destruct (key_eqb k k'); congruence. }
  destruct a as [g|x|x|x|x| |x lam f|]; cbn [step]; try (cbn; congruence).
  - destruct (trace_of At (KGrad _) _); [cbn; congruence|apply C].
  - destruct (trace_of At (KJac _) _); [cbn; congruence|apply C].
  - destruct (trace_of At (KHess _ _) _); [cbn; congruence|]. destruct (Nat.eqb _ _); [|cbn; congruence].
    destruct (num_dec _); [apply C|cbn; congruence].
Qed.
End N.
