From Verif Require Import Base ArtModel ArtSpec.


Lemma nth_set_pc : forall l i p j, nth_error (set_pc i p l) j = if Nat.eqb i j then option_map (fun x => (fst x, p)) (nth_error l j) else nth_error l j.
Proof.
  induction l as [|[s q] l IH]; intros i p j; simpl.
  - destruct i, j; simpl; try reflexivity; destruct (Nat.eqb i j); reflexivity.
  - destruct i, j; simpl; try reflexivity. apply IH.
Qed.

Section P.
Variable md5 : source -> string.
Variable compiles : source -> bool.
Variable defines : source -> string -> bool.
Notation pstep := (pstep md5 compiles defines).
Notation sstep := (sstep md5 compiles defines).
Notation srun := (srun md5 compiles defines).
Notation locked := (locked md5 compiles defines).

Lemma srun_snoc : forall s l e, srun s (l ++ [e]) = sstep (srun s l) e.
Proof. intros. unfold ArtModel.srun. now rewrite fold_left_app. Qed.
Lemma srun_app : forall s l1 l2, srun s (l1 ++ l2) = srun (srun s l1) l2.
Proof. intros. unfold ArtModel.srun. now rewrite fold_left_app. Qed.

(** one step, seen from every build: the others are as they were, and the one concerned made its move *)
Lemma sstep_builds : forall s e j src p, nth_error (builds (sstep s e)) j = Some (src, p) ->
  exists q, nth_error (builds s) j = Some (src, q) /\
  ((p = q /\ (e = Run j -> pstep src q (files s) = (p, files (sstep s e)))) \/
   (e = Run j /\ pstep src q (files s) = (p, files (sstep s e))) \/
   (e = Kill j /\ p = killed q /\ files (sstep s e) = files s) \/ (e = GccDies j /\ p = gcc_dies q /\ files (sstep s e) = files s)).
Proof.
  intros s e j src p H. destruct e as [i|i|i]; simpl in *.
  - destruct (nth_error (builds s) i) as [[src0 p0]|] eqn:E.
    + destruct (pstep src0 p0 (files s)) as [p' d] eqn:Ep. cbn [builds files] in *. rewrite nth_set_pc in H. destruct (Nat.eqb_spec i j) as [->|N].
      * rewrite E in H. cbn in H. inversion H; subst. exists p0. split; [exact E|]. right; left. auto.
      * exists p. split; [exact H|]. left. split; [reflexivity|]. intros X; inversion X; congruence.
    + exists p. split; [exact H|]. left. split; [reflexivity|]. intros X; inversion X; subst; congruence.
  - destruct (nth_error (builds s) i) as [[src0 p0]|] eqn:E.
    + cbn [builds files] in *. rewrite nth_set_pc in H. destruct (Nat.eqb_spec i j) as [->|N].
      * rewrite E in H. cbn in H. inversion H; subst. exists p0. split; [exact E|]. right; right; left. auto.
      * exists p. split; [exact H|]. left. split; [reflexivity|]. discriminate.
    + exists p. split; [exact H|]. left. split; [reflexivity|]. discriminate.
  - destruct (nth_error (builds s) i) as [[src0 p0]|] eqn:E.
    + cbn [builds files] in *. rewrite nth_set_pc in H. destruct (Nat.eqb_spec i j) as [->|N].
      * rewrite E in H. cbn in H. inversion H; subst. exists p0. split; [exact E|]. right; right; right. auto.
      * exists p. split; [exact H|]. left. split; [reflexivity|]. discriminate.
    + exists p. split; [exact H|]. left. split; [reflexivity|]. discriminate.
Qed.

(** the files move only in a Run of an existing build *)
Lemma sstep_files : forall s e, files (sstep s e) = files s \/
  exists i src q p, e = Run i /\ nth_error (builds s) i = Some (src, q) /\ pstep src q (files s) = (p, files (sstep s e)) /\
    nth_error (builds (sstep s e)) i = Some (src, p).
Proof.
  intros s e. destruct e as [i|i|i]; simpl.
  - destruct (nth_error (builds s) i) as [[src0 p0]|] eqn:E; [|now left]. destruct (pstep src0 p0 (files s)) as [p' d] eqn:Ep. right.
    exists i, src0, p0, p'. cbn [builds files]. rewrite nth_set_pc, Nat.eqb_refl, E. auto.
  - left. destruct (nth_error (builds s) i) as [[]|]; reflexivity.
  - left. destruct (nth_error (builds s) i) as [[]|]; reflexivity.
Qed.

(** what one operation does to the directory *)
Lemma pstep_libs : forall src q d p d', pstep src q d = (p, d') ->
  libs d' = libs d \/ exists h c, (q = POpen h c /\ d' = set_lib h Incomplete d) \/ (q = PLink h c /\ d' = set_lib h (Linked c) d).
Proof.
  intros src q d p d' E. destruct q; simpl in E.
  - inversion E; now left.
  - destruct (nth_error src k); [destruct (cfile d)|]; inversion E; now left.
  - destruct (cfile d); [destruct (next_chunk _ _)|]; inversion E; now left.
  - destruct (libs d h); inversion E; subst; now left.
  - destruct (cfile d); [destruct (compiles s)|]; inversion E; now left.
  - inversion E; subst. right. exists h, c. auto.
  - inversion E; subst. right. exists h, c. auto.
  - destruct (nth_error wanted (length got)); [destruct (external defines d h s)|]; inversion E; now left.
  - inversion E; now left.
  - inversion E; now left.
Qed.
Lemma pstep_cfile : forall src q d p d', pstep src q d = (p, d') -> cfile d' = cfile d \/ q = PStart \/ exists k, q = PWrite k.
Proof.
  intros src q d p d' E. destruct q; simpl in E; auto.
  - right; right; eauto.
  - destruct (cfile d) eqn:X; [destruct (next_chunk _ _)|]; inversion E; subst; left; auto.
  - destruct (libs d h); inversion E; subst; now left.
  - destruct (cfile d) eqn:X; [destruct (compiles s)|]; inversion E; subst; left; auto.
  - inversion E; subst. now left.
  - inversion E; subst. now left.
  - destruct (nth_error wanted (length got)); [destruct (external defines d h s)|]; inversion E; now left.
  - inversion E; now left.
  - inversion E; now left.
Qed.

(** ** a library that exists is never replaced *)
Definition keep (d0 : dir) (s : sys) : Prop :=
  (forall h x, libs d0 h = Some x -> libs (files s) h = Some x) /\
  forall i src p h, nth_error (builds s) i = Some (src, p) -> (p = PGcc h \/ exists c, p = POpen h c \/ p = PLink h c) -> libs d0 h = None.

Lemma gcc_dies_out : forall q h, ~ (gcc_dies q = PGcc h \/ exists c, gcc_dies q = POpen h c \/ gcc_dies q = PLink h c).
Proof. intros q h [X|(c & [X|X])]; destruct q; simpl in X; discriminate. Qed.
Lemma killed_out : forall q h, ~ (killed q = PGcc h \/ exists c, killed q = POpen h c \/ killed q = PLink h c).
Proof. intros q h [X|(c & [X|X])]; destruct q; simpl in X; discriminate. Qed.

Lemma keep_step : forall d0 s e, keep d0 s -> keep d0 (sstep s e).
Proof.
  intros d0 s e [K1 K2]. split.
  - intros h x Hx. destruct (sstep_files s e) as [->|(i & src & q & p & He & Hq & Hp & _)]; [now apply K1|].
    destruct (pstep_libs _ _ _ _ _ Hp) as [->|(h' & c & [[-> Hd]|[-> Hd]])]; [now apply K1| |];
      rewrite Hd; cbn [libs set_lib]; destruct (String.eqb_spec h h') as [->|]; try (now apply K1);
      rewrite (K2 _ _ _ h' Hq) in Hx; try discriminate; right; exists c; auto.
  - intros i src p h H X. destruct (sstep_builds _ _ _ _ _ H) as (q & Hq & [[-> _]|[[_ Hp]|[[_ [-> _]]|[_ [-> _]]]]]).
    + now apply (K2 i src q h).
    + destruct X as [->|(c & [->| ->])]; destruct q; simpl in Hp; try discriminate.
      * destruct (nth_error src k); [destruct (cfile (files s))|]; discriminate.
      * destruct (cfile (files s)); [destruct (next_chunk _ _)|]; discriminate.
      * destruct (libs (files s) h0) eqn:L; inversion Hp; subst. destruct (libs d0 h) eqn:L0; [|reflexivity]. rewrite (K1 _ _ L0) in L. discriminate.
      * destruct (cfile (files s)); [destruct (compiles s0)|]; discriminate.
      * destruct (nth_error wanted (length got)); [destruct (external defines (files s) h0 s0)|]; discriminate.
      * destruct (nth_error src k); [destruct (cfile (files s))|]; discriminate.
      * destruct (cfile (files s)); [destruct (next_chunk _ _)|]; discriminate.
      * destruct (libs (files s) h0) eqn:L; inversion Hp; subst.
      * destruct (cfile (files s)); [destruct (compiles s0)|]; inversion Hp; subst. apply (K2 i src (PGcc h) h Hq). now left.
      * destruct (nth_error wanted (length got)); [destruct (external defines (files s) h0 s0)|]; discriminate.
      * destruct (nth_error src k); [destruct (cfile (files s))|]; discriminate.
      * destruct (cfile (files s)); [destruct (next_chunk _ _)|]; discriminate.
      * destruct (libs (files s) h0) eqn:L; inversion Hp; subst.
      * destruct (cfile (files s)); [destruct (compiles s0)|]; inversion Hp; subst.
      * inversion Hp; subst. apply (K2 i src (POpen h c) h Hq). right; exists c; now left.
      * destruct (nth_error wanted (length got)); [destruct (external defines (files s) h0 s0)|]; discriminate.
    + exfalso. eapply killed_out, X.
    + exfalso. eapply gcc_dies_out, X.
Qed.
Lemma keep_run : forall d0 l s, keep d0 s -> keep d0 (srun s l).
Proof. intros d0 l; induction l as [|e l IH]; intros s K; [exact K|]. simpl. apply IH. now apply keep_step. Qed.
Lemma keep_quiet : forall s, quiet s -> keep (files s) s.
Proof.
  intros s Q. split; [auto|]. intros i src p h H X. destruct (Q _ _ _ H) as [-> |[-> |[r ->]]]; destruct X as [X|(c & [X|X])]; discriminate.
Qed.

(** ** what the lock gives: each build hashes and compiles its own C code *)
Definition own (src : source) (p : pc) (d : dir) : Prop :=
  match p with
  | PWrite k => k <= length src /\ cfile d = Some (firstn k src)
  | PHash acc => cfile d = Some src /\ exists r, src = acc ++ r
  | PCheck h | PGcc h => cfile d = Some src /\ h = md5 src
  | POpen h c | PLink h c => h = md5 src /\ c = src
  | PLoad h _ => h = md5 src
  | _ => True
  end.
Definition owned (s : sys) : Prop :=
  (forall i src p, nth_error (builds s) i = Some (src, p) -> own src p (files s)) /\
  (forall i j src src' p q, nth_error (builds s) i = Some (src, p) -> nth_error (builds s) j = Some (src', q) -> inside p -> inside q -> i = j).

Lemma write_at_end : forall l a, write_at (length l) a l = l ++ [a].
Proof.
  intros. unfold write_at. rewrite Nat.sub_diag. cbn [repeat]. rewrite app_nil_r, firstn_all, skipn_all2 by lia. reflexivity.
Qed.
Lemma firstn_S_nth : forall A (l : list A) k a, nth_error l k = Some a -> firstn (S k) l = firstn k l ++ [a].
Proof. intros A l; induction l as [|x l IH]; intros [|k] a H; simpl in *; try discriminate; [now inversion H|]. now rewrite (IH k a H). Qed.

Lemma take_app : forall n (acc r : source), n <> 0 -> (firstn n (skipn (length acc) (acc ++ r)) = [] /\ r = []) \/
  exists b0 b r', firstn n (skipn (length acc) (acc ++ r)) = b0 :: b /\ r = (b0 :: b) ++ r'.
Proof.
  intros n acc r N. rewrite skipn_app, skipn_all, Nat.sub_diag. change ([] ++ skipn 0 r) with r. destruct n as [|n]; [congruence|]. destruct r as [|a r].
  - left. split; reflexivity.
  - right. exists a, (firstn n r), (skipn n r). split; [reflexivity|]. simpl app. now rewrite firstn_skipn.
Qed.
Lemma next_chunk_app : forall acc r, (next_chunk acc (acc ++ r) = [] /\ r = []) \/
  exists b0 b r', next_chunk acc (acc ++ r) = b0 :: b /\ r = (b0 :: b) ++ r'.
Proof. intros acc r. apply take_app. discriminate. Qed.
Lemma own_step : forall src q d p d', own src q d -> pstep src q d = (p, d') -> own src p d'.
Proof.
  intros src q d p d' O E. destruct q; simpl in O, E.
  - inversion E; subst. simpl. split; [lia|reflexivity].
  - destruct O as [Hk Hc]. rewrite Hc in E. destruct (nth_error src k) as [a|] eqn:N; inversion E; subst; simpl.
    + assert (k < length src) as L by (apply nth_error_Some; congruence). split; [lia|]. f_equal.
      assert (length (firstn k src) = k) as Lk by (rewrite firstn_length; lia).
      rewrite <- Lk at 1. rewrite write_at_end. symmetry. exact (firstn_S_nth _ src k a N).
    + apply nth_error_None in N. rewrite firstn_all2 in Hc by lia. split; [exact Hc|]. now exists src.
  - destruct O as [Hc [r Hr]]. rewrite Hc in E. subst src. destruct (next_chunk_app acc r) as [[F ->]|(b0 & b & r' & F & ->)]; rewrite F in E; inversion E; subst; simpl.
    + split; [exact Hc|]. now rewrite app_nil_r.
    + split; [exact Hc|]. exists r'. now rewrite <- app_assoc.
  - destruct (libs d h); inversion E; subst; simpl; tauto.
  - destruct O as [Hc Hh]. rewrite Hc in E. destruct (compiles src); inversion E; subst; simpl; auto.
  - inversion E; subst. simpl. exact O.
  - inversion E; subst. simpl. tauto.
  - destruct (nth_error wanted (length got)); [destruct (external defines d h s)|]; inversion E; subst; simpl; auto.
  - inversion E; subst; simpl; auto.
  - inversion E; subst; simpl; auto.
Qed.
Lemma own_cfile : forall src p d d', cfile d' = cfile d -> own src p d -> own src p d'.
Proof. intros src p d d' E. destruct p; simpl; rewrite ?E; auto. Qed.
Lemma own_outside : forall src p d d', ~ inside p -> own src p d -> own src p d'.
Proof. intros src p d d' E. destruct p; simpl in *; tauto. Qed.
Lemma own_killed : forall src p d, own src p d -> own src (killed p) d.
Proof. intros src p d; destruct p; simpl; tauto. Qed.
Lemma own_gcc_dies : forall src p d, own src p d -> own src (gcc_dies p) d.
Proof. intros src p d; destruct p; simpl; tauto. Qed.
Lemma inside_step : forall src q d p d', pstep src q d = (p, d') -> inside p -> inside q \/ q = PStart.
Proof.
  intros src q d p d' E I. destruct q; simpl in E; try (now left); try (now right); inversion E; subst; simpl in I; try contradiction.
  destruct (nth_error wanted (length got)); [destruct (external defines d h s)|]; inversion H0; subst; simpl in I; contradiction.
Qed.
Lemma inside_killed : forall q, ~ inside (killed q).
Proof. destruct q; simpl; auto. Qed.
Lemma inside_gcc_dies : forall q, inside (gcc_dies q) -> inside q.
Proof. destruct q; simpl; auto. Qed.

Lemma owned_step : forall s e, owned s ->
  (forall i src, e = Run i -> nth_error (builds s) i = Some (src, PStart) -> forall j src' p, nth_error (builds s) j = Some (src', p) -> j <> i -> ~ inside p) ->
  owned (sstep s e).
Proof.
  intros s e [O1 O2] L. split.
  - intros j src p H. destruct (sstep_builds _ _ _ _ _ H) as (q & Hq & [[-> HR]|[[He Hp]|[[_ [-> Hf]]|[_ [-> Hf]]]]]).
    + destruct (sstep_files s e) as [->|(i & src0 & q0 & p0 & He & Hq0 & Hp0 & _)]; [now apply (O1 j)|].
      destruct (Nat.eq_dec i j) as [->|Nij]; [exact (own_step _ _ _ _ _ (O1 _ _ _ Hq) (HR He))|].
      destruct (pstep_cfile _ _ _ _ _ Hp0) as [C|[-> |[k ->]]]; [eapply own_cfile; [exact C|now apply (O1 j)]| |].
      * eapply own_outside; [|now apply (O1 j)]. eapply (L i src0 He Hq0); [exact Hq|congruence].
      * eapply own_outside; [|now apply (O1 j)]. intro I. apply Nij. eapply (O2 i j); [exact Hq0|exact Hq|exact Logic.I|exact I].
    + eapply own_step; [|exact Hp]. now apply (O1 j).
    + rewrite Hf. apply own_killed. now apply (O1 j).
    + rewrite Hf. apply own_gcc_dies. now apply (O1 j).
  - assert (forall j src p, nth_error (builds (sstep s e)) j = Some (src, p) -> inside p ->
      exists q, nth_error (builds s) j = Some (src, q) /\ (inside q \/ (q = PStart /\ e = Run j))) as B.
    { intros j src p H I. destruct (sstep_builds _ _ _ _ _ H) as (q & Hq & [[-> HR]|[[He Hp]|[[_ [-> Hf]]|[_ [-> Hf]]]]]); exists q; (split; [exact Hq|]).
      - now left.
      - destruct (inside_step _ _ _ _ _ Hp I); auto.
      - exfalso. eapply inside_killed, I.
      - left. now apply inside_gcc_dies. }
    intros i j src src' p q Hi Hj Ii Ij. destruct (B _ _ _ Hi Ii) as (qi & Hqi & Xi). destruct (B _ _ _ Hj Ij) as (qj & Hqj & Xj).
    destruct (Nat.eq_dec i j) as [|N]; [assumption|exfalso]. destruct Xi as [Xi|[-> Ei]], Xj as [Xj|[-> Ej]].
    + apply N. eapply (O2 i j); eassumption.
    + eapply (L j src' Ej Hqj); [exact Hqi|exact N|exact Xi].
    + eapply (L i src Ei Hqi); [exact Hqj|congruence|exact Xj].
    + congruence.
Qed.
Lemma locked_snoc : forall s l e, locked s (l ++ [e]) -> locked s l /\
  forall i src, e = Run i -> nth_error (builds (srun s l)) i = Some (src, PStart) -> forall j src' p, nth_error (builds (srun s l)) j = Some (src', p) -> j <> i -> ~ inside p.
Proof.
  intros s l e L. split.
  - intros l1 i l2 src E. apply (L l1 i (l2 ++ [e])). rewrite E, <- app_assoc. reflexivity.
  - intros i src -> H. apply (L l i [] src); [reflexivity|exact H].
Qed.
Lemma owned_quiet : forall s, quiet s -> owned s.
Proof.
  intros s Q. split.
  - intros i src p H. destruct (Q _ _ _ H) as [-> |[-> |[r ->]]]; exact I.
  - intros i j src src' p q Hi Hj Ii _. destruct (Q _ _ _ Hi) as [-> |[-> |[r ->]]]; destruct Ii.
Qed.
(** an invariant carried along a locked schedule may use [owned] *)
Lemma locked_ind : forall (s : sys) (P : sys -> Prop), quiet s -> P s -> (forall s' e, owned s' -> P s' -> P (sstep s' e)) ->
  forall l, locked s l -> owned (srun s l) /\ P (srun s l).
Proof.
  intros s P Q P0 PS l. induction l as [|e l IH] using rev_ind; intro L; [split; [now apply owned_quiet|exact P0]|].
  destruct (locked_snoc _ _ _ L) as [L1 L2]. destruct (IH L1) as [O X]. rewrite srun_snoc. split; [now apply owned_step|now apply PS].
Qed.
End P.
