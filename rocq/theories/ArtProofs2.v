From Verif Require Import Base ArtModel ArtSpec ArtProofs.

Section P.
Variable md5 : source -> string.
Variable compiles : source -> bool.
Variable defines : source -> string -> bool.
Notation pstep := (pstep md5 compiles defines).
Notation sstep := (sstep md5 compiles defines).
Notation srun := (srun md5 compiles defines).
Notation locked := (locked md5 compiles defines).
Notation owned := (owned md5).

Definition prefix_of (c : source) (got : list (string * source)) : Prop := got = firstn (length got) (functions_of c).

Lemma prefix_next : forall c got f, prefix_of c got -> nth_error wanted (length got) = Some f -> prefix_of c (got ++ [(f, c)]).
Proof.
  intros c got f P H. unfold prefix_of in *. remember (length got) as n eqn:Hn. rewrite app_length, <- Hn. cbn [length]. rewrite Nat.add_1_r. rewrite P.
  rewrite (firstn_S_nth _ (functions_of c) n (f, c)); [reflexivity|]. destruct n as [|[|[|[|n]]]]; cbn in H |- *; try (inversion H; reflexivity). destruct n; discriminate.
Qed.
Lemma prefix_all : forall c got, prefix_of c got -> nth_error wanted (length got) = None -> got = functions_of c.
Proof. intros c got P H. apply nth_error_None in H. rewrite P. apply firstn_all2. exact H. Qed.

(** *** safety under the lock *)
Definition safe (s0 s : sys) : Prop :=
  (forall h c, libs (files s) h = Some (Linked c) -> h = md5 c /\ present s0 c) /\
  (forall i src p, nth_error (builds s) i = Some (src, p) -> present s0 src /\
     match p with
     | PLoad _ got => prefix_of src got
     | PDone r => nth_error (builds s0) i = Some (src, PDone r) \/ r = Ok (functions_of src) \/ r = Raise RuntimeError
     | _ => True
     end).
Lemma safe_start : forall s, quiet s -> honest md5 (files s) -> safe s s.
Proof.
  intros s Q Hn. split.
  - intros h c H. split; [now apply Hn|]. right. now exists h.
  - intros i src p H. split; [left; exists p; eapply nth_error_In, H|]. destruct (Q _ _ _ H) as [-> |[-> |[r ->]]]; auto.
Qed.
Lemma safe_step : forall s0, no_collision md5 s0 -> forall s e, owned s -> safe s0 s -> safe s0 (sstep s e).
Proof.
  intros s0 NC s e [O1 O2] [S1 S2]. split.
  - intros h c H. destruct (sstep_files md5 compiles defines s e) as [E|(i & src & q & p & He & Hq & Hp & _)]; [rewrite E in H; now apply S1|].
    destruct (pstep_libs _ _ _ _ _ _ _ _ Hp) as [E|(h' & c' & [[-> E]|[-> E]])]; rewrite E in H; [now apply S1| |]; cbn [libs set_lib] in H;
      (destruct (String.eqb_spec h h') as [->|]; [|now apply S1]); [discriminate H|]. inversion H; subst c'. destruct (O1 _ _ _ Hq) as [-> ->]. split; [reflexivity|]. now apply (S2 _ _ _ Hq).
  - intros i src p H. destruct (sstep_builds md5 compiles defines _ _ _ _ _ H) as (q & Hq & X). destruct (S2 _ _ _ Hq) as [Pr Sq]. split; [exact Pr|].
    destruct X as [[-> _]|[[_ Hp]|[[_ [-> _]]|[_ [-> _]]]]].
    + exact Sq.
    + specialize (O1 _ _ _ Hq). destruct q; simpl in Hp, O1.
      * inversion Hp; subst; exact I.
      * destruct O1 as [_ Hc]. rewrite Hc in Hp. destruct (nth_error src k); inversion Hp; subst; exact I.
      * destruct O1 as [Hc _]. rewrite Hc in Hp. destruct (next_chunk _ _); inversion Hp; subst; exact I.
      * destruct (libs (files s) h); inversion Hp; subst; [reflexivity|exact I].
      * destruct O1 as [Hc _]. rewrite Hc in Hp. destruct (compiles src); inversion Hp; subst; [exact I|reflexivity].
      * inversion Hp; subst; exact I.
      * inversion Hp; subst; reflexivity.
      * destruct (nth_error wanted (length got)) as [f|] eqn:N; [|inversion Hp; subst; right; left; f_equal; now apply prefix_all].
        unfold external in Hp. destruct (libs (files s) h) as [[|c]|] eqn:L; try (inversion Hp; subst; auto; fail).
        destruct (defines c f); [|inversion Hp; subst; auto]. inversion Hp; subst. destruct (S1 _ _ L) as [Hh Pc].
        rewrite (NC c src Pc Pr) by congruence. now apply prefix_next.
      * inversion Hp; subst. exact Sq.
      * inversion Hp; subst. exact I.
    + destruct q; simpl; try exact I. exact Sq.
    + destruct q; simpl; try exact I; try reflexivity; exact Sq.
Qed.

(** *** what an existing library means *)
Definition outcome (x : image) (r : result (list (string * source))) : Prop :=
  match x with
  | Incomplete => r = Raise RuntimeError
  | Linked c => (forall f, In f wanted -> defines c f = true) /\ r = Ok (functions_of c) \/ (exists f, In f wanted /\ defines c f = false) /\ r = Raise RuntimeError
  end.
Definition partial (x : image) (got : list (string * source)) : Prop :=
  match x with Incomplete => got = [] | Linked c => prefix_of c got /\ forall f, In f (firstn (length got) wanted) -> defines c f = true end.
Definition cached (s0 : sys) (h0 : string) (x : image) (s : sys) : Prop :=
  keep (files s0) s /\
  forall i src p, nth_error (builds s) i = Some (src, p) -> md5 src = h0 ->
     match p with
     | PGcc _ | POpen _ _ | PLink _ _ => False
     | PLoad _ got => partial x got
     | PDone r => nth_error (builds s0) i = Some (src, PDone r) \/ outcome x r
     | _ => True
     end.
Lemma cached_start : forall s h0 x, quiet s -> cached s h0 x s.
Proof.
  intros s h0 x Q. split; [now apply keep_quiet|]. intros i src p H _. destruct (Q _ _ _ H) as [-> |[-> |[r ->]]]; auto.
Qed.
Lemma partial_nil : forall x, partial x [].
Proof. intros [|c]; [reflexivity|]. split; [reflexivity|]. intros f []. Qed.
Lemma cached_step : forall s0 h0 x, libs (files s0) h0 = Some x -> forall s e, owned s -> cached s0 h0 x s -> cached s0 h0 x (sstep s e).
Proof.
  intros s0 h0 x Hx s e [O1 O2] [K C]. split; [now apply keep_step|].
  intros i src p H Hh. destruct (sstep_builds md5 compiles defines _ _ _ _ _ H) as (q & Hq & X). specialize (C _ _ _ Hq Hh).
  destruct X as [[-> _]|[[_ Hp]|[[_ [-> _]]|[_ [-> _]]]]].
  - exact C.
  - specialize (O1 _ _ _ Hq). destruct q; simpl in Hp, O1.
    + inversion Hp; subst; exact I.
    + destruct O1 as [_ Hc]. rewrite Hc in Hp. destruct (nth_error src k); inversion Hp; subst; exact I.
    + destruct O1 as [Hc _]. rewrite Hc in Hp. destruct (next_chunk _ _); inversion Hp; subst; exact I.
    + destruct O1 as [_ Eh]. assert (libs (files s) h = Some x) as L by (rewrite Eh, Hh; apply (proj1 K), Hx). rewrite L in Hp. inversion Hp; subst. apply partial_nil.
    + contradiction.
    + contradiction.
    + contradiction.
    + assert (libs (files s) h = Some x) as L by (rewrite O1, Hh; apply (proj1 K), Hx).
      destruct (nth_error wanted (length got)) as [f|] eqn:N.
      * unfold external in Hp. rewrite L in Hp. destruct x as [|c]; [inversion Hp; subst; right; reflexivity|]. destruct C as [P D]. destruct (defines c f) eqn:Df.
        -- inversion Hp; subst. split; [now apply prefix_next|]. intros g G. rewrite app_length in G. cbn [length] in G. rewrite Nat.add_1_r, (firstn_S_nth _ wanted _ f N) in G.
           apply in_app_or in G. destruct G as [G|[<-|[]]]; [now apply D|exact Df].
        -- inversion Hp; subst. right. right. split; [|reflexivity]. exists f. split; [eapply nth_error_In, N|exact Df].
      * inversion Hp; subst. right. destruct x as [|c]; [simpl in C; subst got; discriminate N|]. destruct C as [P D]. left. split; [|f_equal; now apply prefix_all].
        intros g G. apply D. rewrite firstn_all2; [exact G|]. now apply nth_error_None.
    + inversion Hp; subst. exact C.
    + inversion Hp; subst. exact I.
  - destruct q; simpl; try exact I. exact C.
  - destruct q; simpl; try contradiction; try exact C.
Qed.

(** *** one build running alone *)
Fixpoint piter (src : source) (n : nat) (pd : pc * dir) : pc * dir :=
  match n with O => pd | S k => piter src k (pstep src (fst pd) (snd pd)) end.
Definition preach (src : source) (a b : pc * dir) : Prop := exists n, piter src n a = b.
Lemma preach_refl : forall src a, preach src a a.
Proof. intros. now exists 0. Qed.
Lemma preach_step : forall src p d b, preach src (pstep src p d) b -> preach src (p, d) b.
Proof. intros src p d b [n H]. exists (S n). exact H. Qed.
Lemma piter_add : forall src n m a, piter src (n + m) a = piter src m (piter src n a).
Proof. intros src n; induction n as [|n IH]; intros m a; [reflexivity|]. simpl. apply IH. Qed.
Lemma preach_trans : forall src a b c, preach src a b -> preach src b c -> preach src a c.
Proof. intros src a b c [n H] [m H']. exists (n + m). now rewrite piter_add, H. Qed.

Lemma preach_write : forall r src l d, src = l ++ r -> cfile d = Some l -> preach src (PWrite (length l), d) (PHash [], set_cfile src d).
Proof.
  induction r as [|a r IH]; intros src l d Hs Hc; apply preach_step; simpl; rewrite Hc.
  - assert (nth_error src (length l) = None) as N by (apply nth_error_None; subst src; rewrite app_length; simpl; lia). rewrite N. rewrite app_nil_r in Hs. subst l.
    exists 0. simpl. f_equal. destruct d as [cf lb]. cbn in *. now subst cf.
  - assert (nth_error src (length l) = Some a) as N by (subst src; rewrite nth_error_app2, Nat.sub_diag by lia; reflexivity). rewrite N, write_at_end.
    replace (S (length l)) with (length (l ++ [a])) by (rewrite app_length; simpl; lia).
    exact (IH src (l ++ [a]) (set_cfile (l ++ [a]) d) ltac:(now rewrite <- app_assoc) eq_refl).
Qed.
Lemma preach_generate : forall src d, preach src (PStart, d) (PHash [], set_cfile src d).
Proof. intros src d. apply preach_step. simpl. exact (preach_write src src [] (set_cfile [] d) eq_refl eq_refl). Qed.
Lemma preach_hash_from : forall n r acc src c d, length r <= n -> c = acc ++ r -> cfile d = Some c -> preach src (PHash acc, d) (PCheck (md5 c), d).
Proof.
  induction n as [|n IH]; intros r acc src c d Hn Hr Hc; apply preach_step; simpl; rewrite Hc; rewrite Hr at 1;
    destruct (next_chunk_app acc r) as [[F ->]|(b0 & b & r' & F & ->)]; rewrite F.
  - subst c. rewrite app_nil_r. apply preach_refl.
  - simpl in Hn. lia.
  - subst c. rewrite app_nil_r. apply preach_refl.
  - apply (IH r'); [simpl in Hn; rewrite app_length in Hn; lia| |exact Hc]. now rewrite Hr, <- app_assoc.
Qed.
Lemma preach_hash : forall src c d, cfile d = Some c -> preach src (PHash [], d) (PCheck (md5 c), d).
Proof. intros src c d Hc. eapply (preach_hash_from (length c) c); [lia|reflexivity|exact Hc]. Qed.
Lemma preach_gcc : forall src h d, libs d h = None -> preach src (PCheck h, d) (PGcc h, d).
Proof. intros src h d H. apply preach_step. simpl. rewrite H. apply preach_refl. Qed.
Lemma preach_link : forall src h c d, cfile d = Some c -> compiles c = true -> preach src (PGcc h, d) (PLink h c, set_lib h Incomplete d).
Proof. intros src h c d Hc C. apply preach_step. simpl. rewrite Hc, C. apply preach_step. simpl. apply preach_refl. Qed.
Lemma preach_linked : forall src h c d, preach src (PLink h c, d) (PLoad h [], set_lib h (Linked c) d).
Proof. intros. apply preach_step. simpl. apply preach_refl. Qed.
Lemma preach_load : forall src h c d, libs d h = Some (Linked c) -> (forall f, In f wanted -> defines c f = true) ->
  preach src (PLoad h [], d) (PDone (Ok (functions_of c)), d).
Proof.
  intros src h c d L D. do 4 (apply preach_step; cbn [ArtModel.pstep length app nth_error wanted]; unfold external; rewrite L, D by (cbn; auto 6)).
  apply preach_step. cbn. apply preach_refl.
Qed.
Lemma preach_cached : forall src h x d, libs d h = Some x -> preach src (PCheck h, d) (PLoad h [], d).
Proof. intros src h x d H. apply preach_step. simpl. rewrite H. apply preach_refl. Qed.

Lemma set_pc_set_pc : forall l i p q, set_pc i p (set_pc i q l) = set_pc i p l.
Proof. induction l as [|[s x] l IH]; intros [|i] p q; simpl; try reflexivity. now rewrite IH. Qed.
Lemma set_pc_same : forall l i src p, nth_error l i = Some (src, p) -> set_pc i p l = l.
Proof. induction l as [|[s x] l IH]; intros [|i] src p H; simpl in *; try discriminate; [now inversion H|]. now rewrite (IH _ _ _ H). Qed.
Lemma lone : forall n s i src p, nth_error (builds s) i = Some (src, p) ->
  srun s (repeat (Run i) n) = let '(p', d') := piter src n (p, files s) in {| builds := set_pc i p' (builds s); files := d' |}.
Proof.
  induction n as [|n IH]; intros s i src p H.
  - cbn. rewrite (set_pc_same _ _ _ _ H). destruct s; reflexivity.
  - cbn [repeat piter fst snd]. change (srun s (Run i :: repeat (Run i) n)) with (srun (sstep s (Run i)) (repeat (Run i) n)). unfold ArtModel.sstep. rewrite H.
    destruct (pstep src p (files s)) as [p1 d1]. rewrite (IH _ i src p1) by (cbn [builds]; rewrite nth_set_pc, Nat.eqb_refl, H; reflexivity). cbn [files builds].
    destruct (piter src n (p1, d1)). now rewrite set_pc_set_pc.
Qed.
Lemma lone_reach : forall s i src p p' d', nth_error (builds s) i = Some (src, p) -> preach src (p, files s) (p', d') ->
  exists n, srun s (repeat (Run i) n) = {| builds := set_pc i p' (builds s); files := d' |}.
Proof. intros s i src p p' d' H [n E]. exists n. rewrite (lone n s i src p H), E. reflexivity. Qed.
End P.
