(** Proofs for C66: invariants of histories on one model object *)
From Verif Require Import Base TraceModel TraceSpec.

Lemma nth_set_nth : forall {B} (l : list B) i j b,
  nth_error (set_nth i b l) j = if Nat.eqb i j then match nth_error l j with Some _ => Some b | None => None end else nth_error l j.
Proof.
  induction l as [|a l IH]; intros [|i] [|j] b; cbn; try reflexivity.
  - destruct (Nat.eqb i j); reflexivity.
  - apply IH.
Qed.

Lemma nth_put_at : forall {B} (l : list B) i j b, i < List.length l ->
  nth_error (put_at l i b) j = if Nat.eqb i j then Some b else nth_error l j.
Proof.
  unfold put_at. induction l as [|a l IH]; intros [|i] [|j] b H; cbn in *; try lia; try reflexivity.
  apply IH. lia.
Qed.

Lemma nth_snoc : forall {B} (l : list B) b j,
  nth_error (l ++ [b]) j = if Nat.eqb j (List.length l) then Some b else nth_error l j.
Proof.
  induction l as [|a l IH]; intros b [|j]; cbn; try reflexivity.
  - destruct j; reflexivity.
  - apply IH.
Qed.

Lemma nth_len : forall {B} (l : list B) j b, nth_error l j = Some b -> j < List.length l.
Proof. intros B l j b H. apply nth_error_Some. congruence. Qed.

Lemma find_trace_in : forall l k s c, find_trace l k s = Some c -> exists ks, In (ks, c) l.
Proof.
  induction l as [|[[k' s'] c'] r IH]; cbn; intros k s c H; [discriminate|].
  destruct (_ && _)%bool; [injection H as <-; exists (k', s'); left; reflexivity|].
  destruct (IH _ _ _ H) as [ks K]. exists ks. right. exact K.
Qed.

Section T.
Variables X P Y : Type.
Variable body : nat -> list string -> X -> P -> Y.
Variable sig : nat -> X -> P -> nat.
Local Notation astep := (act_step X P Y body sig).
Local Notation arun := (run X P Y body sig).
Local Notation estep := (expect_step X P Y body).
Local Notation erun := (expect_run X P Y body).
Local Notation acall := (call X P Y body sig).
Local Notation world := (world P).
Local Notation expect := (expect P).

Definition fun_ok (c : list string) (b : option backend) (f : option funs) : Prop :=
  match b, f with
  | Some Casadi, Some (FCas c') => c' = c
  | Some Jax, Some (FJax l) => Forall (fun t => snd t = c) l
  | Some Custom, Some FCustom => True
  | None, None => True
  | _, _ => False
  end.

Record inv (c : list string) (d : bool) (bs : list backend) (w : world) (e : expect) : Prop := {
  i_m : d = false -> m_params P (w_model P w) = Val (e_model P e);
  i_con : m_con P (w_model P w) = e_con P e;
  i_c : bs <> [] -> e_con P e = c;
  i_len : List.length (e_probs P e) = List.length bs;
  i_wlen : List.length (w_funs P w) = List.length bs;
  i_wplen : List.length (w_probs P w) = List.length bs;
  i_probs : forall i c' p, nth_error (e_probs P e) i = Some (c', p) ->
              c' = c /\ nth_error (w_probs P w) i = Some {| p_params := Val p; p_funs := i |};
  i_funs : forall i, fun_ok c (nth_error bs i) (nth_error (w_funs P w) i);
  i_batch : m_batch P (w_model P w) = match List.length bs with O => None | S n => Some n end }.

Lemma inv_dirty : forall c bs w e d d', inv c d bs w e -> (d' = false -> d = false) -> inv c d' bs w e.
Proof. intros c bs w e d d' [] K. constructor; auto. Qed.

(** A call of one of the functions *)
Lemma call_inv : forall c d bs w e f b k x p, inv c d bs w e -> nth_error bs f = Some b ->
  snd (acall w f k x (Val p)) = Ok (body k c x p) /\
  inv c (d || negb (plain_backend b)) bs (fst (acall w f k x (Val p))) e.
Proof.
  intros c d bs w e f b k x p I Hb.
  assert (bs <> []) as NE by (intros ->; destruct f; discriminate).
  pose proof (i_funs _ _ _ _ _ I f) as F. rewrite Hb in F.
  pose proof (i_con _ _ _ _ _ I) as Con. pose proof (i_c _ _ _ _ _ I NE) as Ec.
  cbn [call]. destruct (nth_error (w_funs P w) f) as [[c'|l|]|] eqn:Ef; destruct b; cbn in F; try contradiction.
  - subst c'. cbn. split; [reflexivity|]. eapply inv_dirty; [exact I|]. destruct d; auto.
  - destruct (find_trace l k (sig k x p)) as [c'|] eqn:Ft.
    + destruct (find_trace_in _ _ _ _ Ft) as [ks K]. rewrite Forall_forall in F. specialize (F _ K). cbn in F.
      subst c'. split; [reflexivity|]. eapply inv_dirty; [exact I|]. destruct d; cbn; auto; discriminate.
    + cbn. rewrite Con, Ec. split; [reflexivity|]. destruct I. constructor; cbn; auto.
      * destruct d; discriminate.
      * assert (forall {B} (l : list B) i b, List.length (set_nth i b l) = List.length l) as SL
          by (induction l0 as [|? ? IH]; intros [|] ?; cbn; auto).
        rewrite SL. assumption.
      * intros j. rewrite nth_set_nth. destruct (Nat.eqb f j) eqn:Fj; [|apply i_funs0].
        apply Nat.eqb_eq in Fj. subst j. rewrite Hb, Ef. cbn. constructor; [reflexivity|assumption].
  - cbn. rewrite Con, Ec. split; [reflexivity|]. destruct I. constructor; cbn; auto. destruct d; discriminate.
Qed.

Lemma nth_opt_len : forall {B C} (l : list B) (l' : list C) i b, List.length l = List.length l' ->
  nth_error l i = Some b -> exists c, nth_error l' i = Some c.
Proof.
  intros B C l l' i b E H. apply nth_len in H. rewrite E in H. apply nth_error_Some in H.
  destruct (nth_error l' i); [eauto|congruence].
Qed.

Lemma nth_none_len : forall {B C} (l : list B) (l' : list C) i, List.length l = List.length l' ->
  nth_error l i = None -> nth_error l' i = None.
Proof. intros B C l l' i E H. apply nth_error_None in H. apply nth_error_None. lia. Qed.

Lemma last_skipn : forall {B} (l : list B) n b, List.length l = S n -> nth_error l n = Some b ->
  skipn (List.length l - 1) l = [b].
Proof.
  intros B l n b L H. rewrite L. replace (S n - 1) with n by lia. revert l L H.
  induction n as [|n IH]; intros [|a l] L H; cbn in *; try discriminate.
  - destruct l; cbn in L; [|discriminate]. congruence.
  - apply IH; congruence.
Qed.

Theorem shared_inv : forall h c d bs w e, inv c d bs w e -> tidy c d bs h -> arun w h = erun false e h.
Proof.
  induction h as [|a h IH]; intros c d bs w e I T; [reflexivity|].
  cbn [run expect_run].
  assert (forall d' bs' w' e' r, astep w a = (w', r) -> estep false e a = (e', r) -> inv c d' bs' w' e' -> tidy c d' bs' h ->
          snd (astep w a) :: arun (fst (astep w a)) h = snd (estep false e a) :: erun false (fst (estep false e a)) h) as Go.
  { intros d' bs' w' e' r -> -> I' T'. cbn. f_equal. eapply IH; eassumption. }
  destruct a as [b c'|i k x|i x|i g|p|x]; cbn [tidy] in T.
  - destruct T as [-> [-> T]]. pose proof (i_m _ _ _ _ _ I eq_refl) as M.
    assert (astep w (New b c) =
            ({| w_model := {| m_params := Val (e_model P e); m_con := c; m_batch := Some (List.length (w_funs P w)) |};
                w_funs := w_funs P w ++ [match b with Casadi => FCas c | Jax => FJax [] | Custom => FCustom end];
                w_probs := w_probs P w ++ [{| p_params := Val (e_model P e); p_funs := List.length (w_funs P w) |}] |}, Ok None)) as St
      by (cbn; rewrite M; destruct b; reflexivity).
    eapply Go; [exact St|reflexivity| |exact T].
    + destruct I. constructor; cbn; auto.
      * rewrite !app_length. cbn. lia.
      * rewrite !app_length. cbn. lia.
      * rewrite !app_length. cbn. lia.
      * intros i c' p. rewrite !nth_snoc, i_len0, i_wplen0, i_wlen0.
        destruct (Nat.eqb i (List.length bs)) eqn:E; [|apply i_probs0].
        intros K. injection K as <- <-. apply Nat.eqb_eq in E. subst i. auto.
      * intros i. rewrite !nth_snoc, i_wlen0. destruct (Nat.eqb i (List.length bs)); [|apply i_funs0].
        destruct b; cbn; auto.
      * rewrite app_length. cbn. replace (List.length bs + 1) with (S (List.length bs)) by lia. congruence.
  - cbn [act_step expect_step] in *. destruct (nth_error (e_probs P e) i) as [[c' p]|] eqn:Ei.
    + destruct (i_probs _ _ _ _ _ I _ _ _ Ei) as [-> Wi]. rewrite Wi in *. cbn [p_funs p_params] in *.
      destruct (nth_opt_len _ bs _ _ (i_len _ _ _ _ _ I) Ei) as [b Hb]. rewrite Hb in T.
      destruct (call_inv _ _ _ _ _ _ _ k x p I Hb) as [V I'].
      eapply Go; [|reflexivity|exact I'|exact T]. rewrite V. reflexivity.
    + pose proof (nth_none_len _ (w_probs P w) _ (eq_trans (i_len _ _ _ _ _ I) (eq_sym (i_wplen _ _ _ _ _ I))) Ei) as Wi.
      pose proof (nth_none_len _ bs _ (i_len _ _ _ _ _ I) Ei) as Hb. rewrite Hb in T. rewrite Wi in *.
      eapply Go; [reflexivity|reflexivity|exact I|exact T].
  - cbn [act_step expect_step] in *. destruct (nth_error (e_probs P e) i) as [[c' p]|] eqn:Ei.
    + destruct (i_probs _ _ _ _ _ I _ _ _ Ei) as [-> Wi]. rewrite Wi, (i_batch _ _ _ _ _ I) in *.
      destruct (List.length bs) as [|n] eqn:Ln.
      { pose proof (nth_len _ _ _ Ei). rewrite (i_len _ _ _ _ _ I) in *. lia. }
      assert (exists b, nth_error bs n = Some b) as [b Hb].
      { destruct (nth_error bs n) eqn:E; [eauto|]. apply nth_error_None in E. lia. }
      rewrite <- Ln, (last_skipn _ _ _ Ln Hb) in T. cbn [forallb] in T. rewrite Bool.andb_true_r in T.
      destruct (call_inv _ _ _ _ _ _ _ fwd x p I Hb) as [V I'].
      eapply Go; [|reflexivity|exact I'|exact T]. cbn [p_params]. rewrite V. reflexivity.
    + pose proof (nth_none_len _ (w_probs P w) _ (eq_trans (i_len _ _ _ _ _ I) (eq_sym (i_wplen _ _ _ _ _ I))) Ei) as Wi.
      rewrite Wi in *. eapply Go; [reflexivity|reflexivity| |exact T].
      eapply inv_dirty; [exact I|]. destruct d; auto.
  - cbn [act_step expect_step] in *. destruct (nth_error (e_probs P e) i) as [[c' p]|] eqn:Ei.
    + destruct (i_probs _ _ _ _ _ I _ _ _ Ei) as [-> Wi]. rewrite Wi in *.
      destruct (nth_opt_len _ bs _ _ (i_len _ _ _ _ _ I) Ei) as [b Hb]. rewrite Hb in T.
      eapply Go; [reflexivity|reflexivity| |exact T].
      pose proof (nth_len _ _ _ Ei) as Li.
      destruct I. constructor; cbn; auto.
      * unfold put_at. rewrite app_length. cbn [List.length]. rewrite firstn_length, skipn_length. lia.
      * assert (forall {B} (l : list B) i b, List.length (set_nth i b l) = List.length l) as SL
          by (induction l as [|? ? IHl]; intros [|] ?; cbn; auto).
        rewrite SL. assumption.
      * intros j c' q. rewrite (nth_put_at _ _ _ _ Li), nth_set_nth. destruct (Nat.eqb i j) eqn:E; [|apply i_probs0].
        intros K. injection K as <- <-. apply Nat.eqb_eq in E. subst j. rewrite Wi. auto.
    + pose proof (nth_none_len _ (w_probs P w) _ (eq_trans (i_len _ _ _ _ _ I) (eq_sym (i_wplen _ _ _ _ _ I))) Ei) as Wi.
      pose proof (nth_none_len _ bs _ (i_len _ _ _ _ _ I) Ei) as Hb. rewrite Hb in T. rewrite Wi in *.
      eapply Go; [reflexivity|reflexivity|exact I|exact T].
  - eapply Go; [reflexivity|reflexivity| |exact T]. destruct I. constructor; cbn; auto.
  - destruct T as [-> T]. pose proof (i_m _ _ _ _ _ I eq_refl) as M. pose proof (i_con _ _ _ _ _ I) as Con.
    eapply Go; [|reflexivity|exact I|exact T]. cbn. rewrite M, Con. reflexivity.
Qed.

Lemma inv_fresh : forall p c c0, inv c false [] (fresh P p c0) (expect0 p c0).
Proof.
  intros p c c0. constructor; cbn; auto.
  - intros H. congruence.
  - intros i c' q H. destruct i; discriminate.
  - intros i. destruct i; exact Logic.I.
Qed.

(** CasADi problems *)
Record cinv (w : world) (e : expect) : Prop := {
  k_m : m_params P (w_model P w) = Val (e_model P e);
  k_con : m_con P (w_model P w) = e_con P e;
  k_wlen : List.length (w_funs P w) = List.length (e_probs P e);
  k_wplen : List.length (w_probs P w) = List.length (e_probs P e);
  k_probs : forall i c' p, nth_error (e_probs P e) i = Some (c', p) ->
              nth_error (w_funs P w) i = Some (FCas c') /\
              nth_error (w_probs P w) i = Some {| p_params := Val p; p_funs := i |};
  k_batch : match List.length (e_probs P e) with
            | O => m_batch P (w_model P w) = None
            | S n => m_batch P (w_model P w) = Some n /\ nth_error (w_funs P w) n = Some (FCas (e_con P e)) end }.

Lemma nth_snoc_lt : forall {B} (l : list B) b j a, nth_error l j = Some a -> nth_error (l ++ [b]) j = Some a.
Proof. intros B l b j a H. rewrite nth_error_app1; [exact H|]. eapply nth_len; eassumption. Qed.

Theorem casadi_inv : forall h w e, cinv w e -> Forall (fun b => b = Casadi) (made h) -> arun w h = erun true e h.
Proof.
  induction h as [|a h IH]; intros w e I T; [reflexivity|].
  cbn [run expect_run].
  assert (forall w' e' r, astep w a = (w', r) -> estep true e a = (e', r) -> cinv w' e' -> Forall (fun b => b = Casadi) (made h) ->
          snd (astep w a) :: arun (fst (astep w a)) h = snd (estep true e a) :: erun true (fst (estep true e a)) h) as Go.
  { intros w' e' r -> -> I' T'. cbn. f_equal. eapply IH; eassumption. }
  destruct a as [b c'|i k x|i x|i g|p|x]; cbn [made] in T.
  - inversion T as [|? ? -> T']; subst. pose proof (k_m _ _ I) as M.
    assert (astep w (New Casadi c') =
            ({| w_model := {| m_params := Val (e_model P e); m_con := c'; m_batch := Some (List.length (w_funs P w)) |};
                w_funs := w_funs P w ++ [FCas c'];
                w_probs := w_probs P w ++ [{| p_params := Val (e_model P e); p_funs := List.length (w_funs P w) |}] |}, Ok None)) as St
      by (cbn; rewrite M; reflexivity).
    eapply Go; [exact St|reflexivity| |exact T'].
    + destruct I. constructor; cbn; auto.
      * rewrite !app_length. cbn. lia.
      * rewrite !app_length. cbn. lia.
      * intros i c'' p. rewrite !nth_snoc, k_wplen0, k_wlen0.
        destruct (Nat.eqb i (List.length (e_probs P e))) eqn:E; [|apply k_probs0].
        intros K. injection K as <- <-. apply Nat.eqb_eq in E. subst i. auto.
      * rewrite app_length. cbn. replace (List.length (e_probs P e) + 1) with (S (List.length (e_probs P e))) by lia.
        rewrite k_wlen0. split; [reflexivity|]. rewrite nth_snoc, k_wlen0, Nat.eqb_refl. reflexivity.
  - cbn [act_step expect_step] in *. destruct (nth_error (e_probs P e) i) as [[c' p]|] eqn:Ei.
    + destruct (k_probs _ _ I _ _ _ Ei) as [Fi Wi]. rewrite Wi in *.
      eapply Go; [|reflexivity|exact I|exact T]. cbn. rewrite Fi. reflexivity.
    + rewrite (nth_none_len _ (w_probs P w) _ (eq_sym (k_wplen _ _ I)) Ei) in *.
      eapply Go; [reflexivity|reflexivity|exact I|exact T].
  - cbn [act_step expect_step] in *. destruct (nth_error (e_probs P e) i) as [[c' p]|] eqn:Ei.
    + destruct (k_probs _ _ I _ _ _ Ei) as [Fi Wi]. rewrite Wi in *.
      pose proof (k_batch _ _ I) as B. pose proof (nth_len _ _ _ Ei) as L.
      destruct (List.length (e_probs P e)) as [|n]; [lia|]. destruct B as [B1 B2]. rewrite B1 in *.
      eapply Go; [|reflexivity|exact I|exact T]. cbn. rewrite B2. reflexivity.
    + rewrite (nth_none_len _ (w_probs P w) _ (eq_sym (k_wplen _ _ I)) Ei) in *.
      eapply Go; [reflexivity|reflexivity|exact I|exact T].
  - cbn [act_step expect_step] in *. destruct (nth_error (e_probs P e) i) as [[c' p]|] eqn:Ei.
    + destruct (k_probs _ _ I _ _ _ Ei) as [Fi Wi]. rewrite Wi in *.
      eapply Go; [reflexivity|reflexivity| |exact T].
      pose proof (nth_len _ _ _ Ei) as Li.
      assert (List.length (put_at (e_probs P e) i (c', g p)) = List.length (e_probs P e)) as PL.
      { unfold put_at. rewrite app_length. cbn [List.length]. rewrite firstn_length, skipn_length. lia. }
      destruct I. constructor; cbn; auto; try (rewrite PL; assumption).
      * rewrite PL. rewrite <- k_wplen0.
        assert (forall {B} (l : list B) i b, List.length (set_nth i b l) = List.length l) as SL
          by (induction l as [|? ? IHl]; intros [|] ?; cbn; auto).
        apply SL.
      * intros j c'' q. rewrite (nth_put_at _ _ _ _ Li), nth_set_nth. destruct (Nat.eqb i j) eqn:E; [|apply k_probs0].
        intros K. injection K as <- <-. apply Nat.eqb_eq in E. subst j. rewrite Wi. auto.
    + rewrite (nth_none_len _ (w_probs P w) _ (eq_sym (k_wplen _ _ I)) Ei) in *.
      eapply Go; [reflexivity|reflexivity|exact I|exact T].
  - eapply Go; [reflexivity|reflexivity| |exact T]. destruct I. constructor; cbn; auto.
  - pose proof (k_m _ _ I) as M. pose proof (k_con _ _ I) as Con.
    eapply Go; [|reflexivity|exact I|exact T]. cbn. rewrite M, Con. reflexivity.
Qed.

Lemma cinv_fresh : forall p c0, cinv (fresh P p c0) (expect0 p c0).
Proof.
  intros p c0. constructor; cbn; auto. intros i c' q H. destruct i; discriminate.
Qed.

(** Leaks *)
Fixpoint final (w : world) (h : list (act X P)) : world :=
  match h with [] => w | a :: r => final (fst (astep w a)) r end.

Lemma run_app : forall h1 h2 w, arun w (h1 ++ h2) = arun w h1 ++ arun (final w h1) h2.
Proof. induction h1 as [|a h1 IH]; intros h2 w; [reflexivity|]. cbn. rewrite IH. reflexivity. Qed.

Lemma run_length : forall h w, List.length (arun w h) = List.length h.
Proof. induction h as [|a h IH]; intros w; [reflexivity|]. cbn. rewrite IH. reflexivity. Qed.

Lemma final_app : forall h1 h2 w, final w (h1 ++ h2) = final (final w h1) h2.
Proof. induction h1 as [|a h1 IH]; intros h2 w; [reflexivity|]. cbn. apply IH. Qed.

Lemma made_app : forall (h1 h2 : list (act X P)), made (h1 ++ h2) = made h1 ++ made h2.
Proof. induction h1 as [|[] h1 IH]; intros h2; cbn; try apply IH; try reflexivity. rewrite IH. reflexivity. Qed.

(** all problems jax: problem i uses the functions i, and no trace of k in problem i unless it has been evaluated *)
Record jinv (i k : nat) (seen : bool) (n : nat) (w : world) : Prop := {
  j_wlen : List.length (w_funs P w) = n;
  j_wplen : List.length (w_probs P w) = n;
  j_funs : forall j f, nth_error (w_funs P w) j = Some f -> exists l, f = FJax l;
  j_probs : forall j o, nth_error (w_probs P w) j = Some o -> p_funs P o = j;
  j_batch : m_batch P (w_model P w) = match n with O => None | S m => Some m end;
  j_new : seen = false -> forall l, nth_error (w_funs P w) i = Some (FJax l) -> forall s, find_trace l k s = None }.

Lemma set_nth_length : forall {B} (l : list B) i b, List.length (set_nth i b l) = List.length l.
Proof. induction l as [|? ? IH]; intros [|] ?; cbn; auto. Qed.

Lemma call_jinv : forall i k seen n w f k' x q, jinv i k seen n w ->
  jinv i k (seen || (Nat.eqb i f && Nat.eqb k k')) n (fst (acall w f k' x q)).
Proof.
  intros i k seen n w f k' x q I.
  assert (forall s', jinv i k (seen || s') n w) as Keep.
  { intros s'. destruct I. constructor; auto. intros H. apply Bool.orb_false_iff in H. apply j_new0, H. }
  destruct q as [p|]; [|apply Keep]. cbn [call].
  destruct (nth_error (w_funs P w) f) as [g|] eqn:Ef; [|apply Keep].
  destruct (j_funs _ _ _ _ _ I _ _ Ef) as [l ->].
  destruct (find_trace l k' (sig k' x p)); [apply Keep|].
  cbn. destruct I. constructor; cbn; auto.
  - rewrite set_nth_length. assumption.
  - intros j g. rewrite nth_set_nth. destruct (Nat.eqb f j); [|apply j_funs0].
    destruct (nth_error (w_funs P w) j); [|discriminate]. intros K. injection K as <-. eauto.
  - intros H l' Hl s. apply Bool.orb_false_iff in H as [-> H].
    rewrite nth_set_nth in Hl. rewrite (Nat.eqb_sym f i) in Hl. destruct (Nat.eqb i f) eqn:E; [|eapply j_new0; eauto].
    apply Nat.eqb_eq in E. subst f. rewrite Ef in Hl. injection Hl as <-. cbn in H. cbn. rewrite H. cbn.
    eapply j_new0; eauto.
Qed.

Definition sees (i k : nat) (a : act X P) : bool :=
  match a with Eval i' k' _ => (Nat.eqb i i' && Nat.eqb k k')%bool | _ => false end.

Lemma step_jinv : forall i k a n w seen, k <> 3 -> jinv i k seen n w -> Forall (fun b => b = Jax) (made [a]) ->
  jinv i k (seen || sees i k a) (n + List.length (made [a])) (fst (astep w a)).
Proof.
  intros i k a n w seen Hk I T.
  assert (forall w', w' = w -> jinv i k (seen || false) (n + 0) w') as Keep.
  { intros w' ->. rewrite Bool.orb_false_r, Nat.add_0_r. exact I. }
  destruct a as [b c|i' k' x|i' x|i' g|p|x]; cbn [made List.length act_step sees] in *.
  - inversion T as [|? ? -> _]; subst. replace (n + 1) with (S n) by lia. rewrite Bool.orb_false_r.
    assert (forall q, jinv i k seen (S n) {| w_model := {| m_params := q; m_con := c; m_batch := Some (List.length (w_funs P w)) |};
              w_funs := w_funs P w ++ [FJax []]; w_probs := w_probs P w ++ [{| p_params := q; p_funs := List.length (w_funs P w) |}] |}) as G.
    { intros q. destruct I. constructor; cbn.
      - rewrite app_length. cbn. lia.
      - rewrite app_length. cbn. lia.
      - intros j f. rewrite nth_snoc. destruct (Nat.eqb j _); [|apply j_funs0]. intros K. injection K as <-. eauto.
      - intros j o. rewrite nth_snoc, j_wplen0. destruct (Nat.eqb j n) eqn:E; [|apply j_probs0].
        intros K. injection K as <-. cbn. apply Nat.eqb_eq in E. lia.
      - rewrite j_wlen0. reflexivity.
      - intros H l. rewrite nth_snoc. destruct (Nat.eqb i _); [|apply j_new0, H]. intros K. injection K as <-. reflexivity. }
    destruct (m_params P (w_model P w)); apply G.
  - rewrite Nat.add_0_r. destruct (nth_error (w_probs P w) i') as [o|] eqn:E.
    + rewrite <- (j_probs _ _ _ _ _ I _ _ E). apply call_jinv. exact I.
    + cbn. destruct I. constructor; auto. intros H. apply Bool.orb_false_iff in H. apply j_new0, H.
  - destruct (nth_error (w_probs P w) i') as [o|] eqn:E; [|apply Keep; reflexivity].
    destruct (m_batch P (w_model P w)) as [f|]; [|apply Keep; reflexivity].
    rewrite Nat.add_0_r. cbn [fst]. rewrite Bool.orb_false_r.
    replace seen with (seen || (Nat.eqb i f && Nat.eqb k fwd))%bool; [apply call_jinv; exact I|].
    assert (Nat.eqb k fwd = false) as -> by (apply Nat.eqb_neq; exact Hk). rewrite Bool.andb_false_r, Bool.orb_false_r. reflexivity.
  - destruct (nth_error (w_probs P w) i') as [o|] eqn:E; [|apply Keep; reflexivity].
    rewrite Nat.add_0_r, Bool.orb_false_r. cbn. destruct I. constructor; cbn; auto.
    + rewrite set_nth_length. assumption.
    + intros j o'. rewrite nth_set_nth. destruct (Nat.eqb i' j) eqn:Ej; [|apply j_probs0].
      destruct (nth_error (w_probs P w) j) eqn:Ew; [|discriminate]. intros K. injection K as <-. cbn.
      apply Nat.eqb_eq in Ej. subst j. eapply j_probs0; eassumption.
  - rewrite Nat.add_0_r, Bool.orb_false_r. destruct I. constructor; cbn; auto.
  - apply Keep. destruct (m_params P (w_model P w)); reflexivity.
Qed.

Lemma run_jinv : forall i k h n w seen, k <> 3 -> jinv i k seen n w -> Forall (fun b => b = Jax) (made h) ->
  jinv i k (seen || existsb (sees i k) h) (n + List.length (made h)) (final w h).
Proof.
  intros i k. induction h as [|a h IH]; intros n w seen Hk I T.
  - cbn. rewrite Bool.orb_false_r, Nat.add_0_r. exact I.
  - assert (made (a :: h) = made [a] ++ made h) as Em by (destruct a; reflexivity).
    rewrite Em in T. apply Forall_app in T as [T1 T2].
    pose proof (step_jinv i k a n w seen Hk I T1) as I1. specialize (IH _ _ _ Hk I1 T2).
    cbn [existsb final]. rewrite Em, app_length, Bool.orb_assoc, Nat.add_assoc. exact IH.
Qed.

Lemma jinv_fresh : forall i k p c, jinv i k false 0 (fresh P p c).
Proof.
  intros. constructor; cbn; auto.
  - intros j f H. destruct j; discriminate.
  - intros j f H. destruct j; discriminate.
  - intros _ l H. destruct i; discriminate.
Qed.

Lemma tracer_keep : forall a w, m_params P (w_model P w) = Tracer -> resets a = false ->
  (forall j f, nth_error (w_funs P w) j = Some f -> exists l, f = FJax l) ->
  m_params P (w_model P (fst (astep w a))) = Tracer.
Proof.
  intros a w M R F.
  assert (forall f k x q, m_params P (w_model P (fst (acall w f k x q))) = Tracer) as C.
  { intros f k x [p|]; [|exact M]. cbn [call]. destruct (nth_error (w_funs P w) f) as [g|] eqn:E; [|exact M].
    destruct (F _ _ E) as [l ->]. destruct (find_trace l k (sig k x p)); [exact M|]. reflexivity. }
  destruct a as [b c|i k x|i x|i g|p|x]; cbn [act_step]; try discriminate R.
  - rewrite M. destruct b; reflexivity.
  - destruct (nth_error (w_probs P w) i); [apply C|exact M].
  - destruct (nth_error (w_probs P w) i); [|exact M]. destruct (m_batch P (w_model P w)); [apply C|exact M].
  - rewrite M. exact M.
Qed.

Lemma tracer_run : forall h w i k seen n, k <> 3 -> jinv i k seen n w -> m_params P (w_model P w) = Tracer ->
  forallb (fun a => negb (resets a)) h = true -> Forall (fun b => b = Jax) (made h) ->
  m_params P (w_model P (final w h)) = Tracer.
Proof.
  induction h as [|a h IH]; intros w i k seen n Hk I M R T; [exact M|].
  cbn in R. apply Bool.andb_true_iff in R as [R1 R2]. apply Bool.negb_true_iff in R1.
  assert (made (a :: h) = made [a] ++ made h) as Em by (destruct a; reflexivity).
  rewrite Em in T. apply Forall_app in T as [T1 T2].
  cbn [final]. eapply IH; [exact Hk|eapply step_jinv; eassumption| |exact R2|exact T2].
  apply tracer_keep; auto. intros j f. apply (j_funs _ _ _ _ _ I).
Qed.

(** after an evaluation of a new function by a jax problem *)
Lemma leaked : forall h1 h2 i k x y p c, k <> 3 ->
  Forall (fun b => b = Jax) (made (h1 ++ h2)) -> existsb (evals i k) h1 = false ->
  nth_error (arun (fresh P p c) (h1 ++ [Eval i k x])) (List.length h1) = Some (Ok y) ->
  forallb (fun a => negb (resets a)) h2 = true ->
  m_params P (w_model P (final (fresh P p c) (h1 ++ Eval i k x :: h2))) = Tracer /\
  exists s, jinv i k s (List.length (made (h1 ++ h2))) (final (fresh P p c) (h1 ++ Eval i k x :: h2)).
Proof.
  intros h1 h2 i k x y p c Hk T E V R.
  rewrite made_app in T. apply Forall_app in T as [T1 T2].
  pose proof (run_jinv i k h1 0 _ false Hk (jinv_fresh i k p c) T1) as I1. cbn [orb plus] in I1.
  change (existsb (sees i k) h1) with (existsb (evals i k) h1) in I1. rewrite E in I1.
  rewrite run_app, nth_error_app2 in V by (rewrite run_length; lia). rewrite run_length, Nat.sub_diag in V.
  set (w1 := final (fresh P p c) h1) in *.
  pose proof (step_jinv i k (Eval i k x) _ w1 false Hk I1 (Forall_nil _)) as I2.
  rewrite final_app. cbn [final].
  assert (m_params P (w_model P (fst (astep w1 (Eval i k x)))) = Tracer) as M.
  { cbn [run nth_error act_step] in V |- *. destruct (nth_error (w_probs P w1) i) as [o|] eqn:Eo; [|discriminate V].
    pose proof (j_probs _ _ _ _ _ I1 _ _ Eo) as Eo'. cbn [fst snd] in V |- *. rewrite Eo' in *.
    destruct (p_params P o) as [q|]; [|discriminate V]. cbn [call] in V |- *.
    destruct (nth_error (w_funs P w1) i) as [f|] eqn:Ef; [|discriminate V].
    destruct (j_funs _ _ _ _ _ I1 _ _ Ef) as [l ->].
    rewrite (j_new _ _ _ _ _ I1 eq_refl _ Ef). reflexivity. }
  cbn [made List.length] in I2. rewrite Nat.add_0_r in I2. split.
  - eapply tracer_run; eauto.
  - pose proof (run_jinv i k h2 _ _ _ Hk I2 T2) as I3. rewrite made_app, app_length. eauto.
Qed.

Lemma leak_forward : forall h1 h2 i k x y z p c, k <> 3 ->
  Forall (fun b => b = Jax) (made (h1 ++ h2)) -> existsb (evals i k) h1 = false ->
  nth_error (arun (fresh P p c) (h1 ++ [Eval i k x])) (List.length h1) = Some (Ok y) ->
  forallb (fun a => negb (resets a)) h2 = true ->
  nth_error (arun (fresh P p c) ((h1 ++ Eval i k x :: h2) ++ [Forward z])) (List.length (h1 ++ Eval i k x :: h2)) = Some (Raise TypeError).
Proof.
  intros h1 h2 i k x y z p c Hk T E V R.
  destruct (leaked h1 h2 i k x y p c Hk T E V R) as [M _].
  rewrite run_app, nth_error_app2 by (rewrite run_length; lia). rewrite run_length, Nat.sub_diag.
  cbn. rewrite M. reflexivity.
Qed.

Lemma leak_new : forall h1 h2 i k x y k' z p c c', k <> 3 ->
  Forall (fun b => b = Jax) (made (h1 ++ h2)) -> existsb (evals i k) h1 = false ->
  nth_error (arun (fresh P p c) (h1 ++ [Eval i k x])) (List.length h1) = Some (Ok y) ->
  forallb (fun a => negb (resets a)) h2 = true ->
  nth_error (arun (fresh P p c) ((h1 ++ Eval i k x :: h2) ++ [New Jax c'; Eval (List.length (made (h1 ++ h2))) k' z]))
     (S (List.length (h1 ++ Eval i k x :: h2))) = Some (Raise TypeError).
Proof.
  intros h1 h2 i k x y k' z p c c' Hk T E V R.
  destruct (leaked h1 h2 i k x y p c Hk T E V R) as [M [s J]].
  rewrite run_app, nth_error_app2 by (rewrite run_length; lia). rewrite run_length.
  replace (S (List.length (h1 ++ Eval i k x :: h2)) - List.length (h1 ++ Eval i k x :: h2)) with 1 by lia.
  set (w := final _ _) in *. cbn [run nth_error act_step]. rewrite M. cbn [fst w_probs].
  rewrite nth_snoc, (j_wplen _ _ _ _ _ J), Nat.eqb_refl. reflexivity.
Qed.

Lemma call_con : forall w f k x q, m_con P (w_model P (fst (acall w f k x q))) = m_con P (w_model P w).
Proof.
  intros w f k x [p|]; [|reflexivity]. cbn [call]. destruct (nth_error (w_funs P w) f) as [[c|l|]|]; try reflexivity.
  destruct (find_trace l k (sig k x p)); reflexivity.
Qed.

Lemma final_con : forall h w, m_con P (w_model P (final w h)) = con_of (m_con P (w_model P w)) h.
Proof.
  unfold con_of. induction h as [|a h IH]; intros w; [reflexivity|]. cbn [final fold_left]. rewrite IH. f_equal.
  destruct a as [b c|i k x|i x|i g|p|x]; cbn [act_step].
  - destruct b, (m_params P (w_model P w)); reflexivity.
  - destruct (nth_error (w_probs P w) i); [apply call_con|reflexivity].
  - destruct (nth_error (w_probs P w) i); [|reflexivity]. destruct (m_batch P (w_model P w)); [apply call_con|reflexivity].
  - destruct (nth_error (w_probs P w) i); reflexivity.
  - reflexivity.
  - destruct (m_params P (w_model P w)); reflexivity.
Qed.

(** setting the parameters again ends it *)
Lemma set_model_forward : forall h p c q z,
  nth_error (arun (fresh P p c) (h ++ [SetModel q; Forward z])) (S (List.length h)) = Some (Ok (Some (body 3 (con_of c h) z q))).
Proof.
  intros h p c q z. rewrite run_app, nth_error_app2 by (rewrite run_length; lia).
  rewrite run_length. replace (S (List.length h) - List.length h) with 1 by lia.
  cbn. rewrite final_con. reflexivity.
Qed.
End T.
