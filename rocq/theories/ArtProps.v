(** C58: compiling a model with CasADi through files in the working directory, by any number of processes that may be killed at any moment. *)
From Verif Require Import Base TreeModel TreeSpec TreeProps CompModel CompSpec CompProofs CompProps ArtModel ArtSpec ArtProofs ArtProofs2.

(** for every schedule in which builds do not overlap while the C file is theirs, with kills and compiler failures anywhere: a build that
    finishes returns the four functions of its own model or raises RuntimeError *)
Theorem C58_locked : forall md5 compiles defines s l, quiet s -> honest md5 (files s) -> no_collision md5 s -> locked md5 compiles defines s l ->
  forall i src src' r, nth_error (builds s) i = Some (src, PStart) -> nth_error (builds (srun md5 compiles defines s l)) i = Some (src', PDone r) ->
  src' = src /\ (r = Ok (functions_of src) \/ r = Raise RuntimeError).
Proof.
  intros md5 compiles defines s l Q Hn NC L i src src' r H0 H.
  assert (src' = src) as ->.
  { revert src' r H. assert (forall src' p, nth_error (builds (srun md5 compiles defines s l)) i = Some (src', p) -> src' = src) as G; [|intros; eapply G; eassumption].
    clear L. induction l as [|e l IH] using rev_ind; [intros src' p H; cbn in H; congruence|]. intros src' p H. rewrite srun_snoc in H.
    destruct (sstep_builds _ _ _ _ _ _ _ _ H) as (q & Hq & _). eapply IH, Hq. }
  split; [reflexivity|].
  destruct (locked_ind md5 compiles defines s (safe md5 s) Q (safe_start md5 s Q Hn) (safe_step md5 compiles defines s NC) l L) as [_ [_ S2]].
  destruct (S2 _ _ _ H) as [_ [X|X]]; [congruence|exact X].
Qed.
Print Assumptions C58_locked.

(** a library that exists when nobody is building is never replaced, whatever the schedule *)
Theorem C58_library_kept : forall md5 compiles defines s l h x, quiet s -> libs (files s) h = Some x -> libs (files (srun md5 compiles defines s l)) h = Some x.
Proof. intros md5 compiles defines s l h x Q H. now apply (proj1 (keep_run md5 compiles defines (files s) l s (keep_quiet s Q))). Qed.
Print Assumptions C58_library_kept.

(** ... and it alone decides what every later build of that hash returns *)
Theorem C58_library_decides : forall md5 compiles defines s l x i src r, quiet s -> locked md5 compiles defines s l ->
  nth_error (builds s) i = Some (src, PStart) -> libs (files s) (md5 src) = Some x ->
  nth_error (builds (srun md5 compiles defines s l)) i = Some (src, PDone r) ->
  (x = Incomplete -> r = Raise RuntimeError) /\
  (forall c, x = Linked c -> (forall f, In f ["forward"; "implicit_con"; "implicit_jac"; "implicit_hess"] -> defines c f = true) -> r = Ok (functions_of c)) /\
  (forall c f, x = Linked c -> In f ["forward"; "implicit_con"; "implicit_jac"; "implicit_hess"] -> defines c f = false -> r = Raise RuntimeError).
Proof.
  intros md5 compiles defines s l x i src r Q L H0 Hx H.
  destruct (locked_ind md5 compiles defines s (cached md5 defines s (md5 src) x) Q (cached_start md5 defines s (md5 src) x Q) (cached_step md5 compiles defines s (md5 src) x Hx) l L) as [_ [_ C]].
  specialize (C _ _ _ H eq_refl). cbn in C. destruct C as [C|C]; [congruence|]. destruct x as [|c]; (split; [|split]); try discriminate; auto.
  - intros c' E D. inversion E; subst c'. destruct C as [[_ C]|[(f & F & D') _]]; [exact C|]. rewrite (D f F) in D'. discriminate.
  - intros c' f E F D. inversion E; subst c'. destruct C as [[D' _]|[_ C]]; [|exact C]. rewrite (D' f F) in D. discriminate.
Qed.
Print Assumptions C58_library_decides.

Lemma complete_wanted : forall compiles defines c, complete compiles defines c -> forall f, In f wanted -> defines c f = true.
Proof. intros compiles defines c (_ & A & B & C & D) f. cbn. intros [<-|[<-|[<-|[<-|[]]]]]; assumption. Qed.

(** a build that runs alone to the end, with no library under its hash or a complete one of its own code, returns its own functions *)
Theorem C58_alone : forall md5 compiles defines s i src, nth_error (builds s) i = Some (src, PStart) -> complete compiles defines src ->
  (libs (files s) (md5 src) = None \/ libs (files s) (md5 src) = Some (Linked src)) ->
  exists n, nth_error (builds (srun md5 compiles defines s (repeat (Run i) n))) i = Some (src, PDone (Ok (functions_of src))) /\
            libs (files (srun md5 compiles defines s (repeat (Run i) n))) (md5 src) = Some (Linked src).
Proof.
  intros md5 compiles defines s i src H0 C L.
  enough (exists d', preach md5 compiles defines src (PStart, files s) (PDone (Ok (functions_of src)), d') /\ libs d' (md5 src) = Some (Linked src)) as (d' & R & L').
  { destruct (lone_reach md5 compiles defines s i src _ _ _ H0 R) as [n E]. exists n. rewrite E. cbn [builds files]. rewrite nth_set_pc, Nat.eqb_refl, H0. split; [reflexivity|exact L']. }
  destruct L as [L|L].
  - exists (set_lib (md5 src) (Linked src) (set_lib (md5 src) Incomplete (set_cfile src (files s)))). split; [|cbn; now rewrite String.eqb_refl].
    eapply preach_trans; [apply preach_generate|]. eapply preach_trans; [apply preach_hash; reflexivity|]. eapply preach_trans; [apply preach_gcc; exact L|].
    eapply preach_trans; [eapply preach_link; [reflexivity|exact (proj1 C)]|]. eapply preach_trans; [apply preach_linked|].
    apply preach_load; [cbn; now rewrite String.eqb_refl|]. eapply complete_wanted, C.
  - exists (set_cfile src (files s)). split; [|exact L].
    eapply preach_trans; [apply preach_generate|]. eapply preach_trans; [apply preach_hash; reflexivity|]. eapply preach_trans; [eapply preach_cached; exact L|].
    apply preach_load; [exact L|]. eapply complete_wanted, C.
Qed.
Print Assumptions C58_alone.

Lemma quiet_nth : forall s i p, quiet s -> (p = PKilled \/ exists r, p = PDone r) -> forall d, quiet {| builds := set_pc i p (builds s); files := d |}.
Proof.
  intros s i p Q Hp d j src q H. cbn [builds] in H. rewrite nth_set_pc in H. destruct (Nat.eqb i j); [|now apply (Q _ _ _ H)].
  destruct (nth_error (builds s) j) as [[s' p']|]; inversion H; subst. right. exact Hp.
Qed.

(** FINDING: kill a first build (Ctrl-C, out of memory, power loss) while the linker writes; from then on every build of that model, by any
    number of processes that even respect the lock, raises RuntimeError: the file name says the library is there, and nothing checks it *)
Theorem C58_killed_link_refuted : forall md5 compiles defines s i src, quiet s -> nth_error (builds s) i = Some (src, PStart) -> complete compiles defines src ->
  libs (files s) (md5 src) = None ->
  exists n, let s1 := srun md5 compiles defines s (repeat (Run i) n ++ [Kill i]) in
  quiet s1 /\ forall l j r, locked md5 compiles defines s1 l -> nth_error (builds s1) j = Some (src, PStart) ->
    nth_error (builds (srun md5 compiles defines s1 l)) j = Some (src, PDone r) -> r = Raise RuntimeError.
Proof.
  intros md5 compiles defines s i src Q H0 C L.
  assert (preach md5 compiles defines src (PStart, files s) (PLink (md5 src) src, set_lib (md5 src) Incomplete (set_cfile src (files s)))) as R.
  { eapply preach_trans; [apply preach_generate|]. eapply preach_trans; [apply preach_hash; reflexivity|]. eapply preach_trans; [apply preach_gcc; exact L|].
    eapply preach_link; [reflexivity|exact (proj1 C)]. }
  destruct (lone_reach md5 compiles defines s i src _ _ _ H0 R) as [n E]. exists n. cbn zeta. rewrite srun_snoc, E. unfold sstep. cbn [builds files].
  rewrite nth_set_pc, Nat.eqb_refl, H0. cbn [option_map fst killed]. rewrite set_pc_set_pc.
  assert (quiet {| builds := set_pc i PKilled (builds s); files := set_lib (md5 src) Incomplete (set_cfile src (files s)) |}) as Q1 by (apply quiet_nth; auto).
  split; [exact Q1|]. intros l j r Lk Hj Hr. refine (proj1 (C58_library_decides md5 compiles defines _ l Incomplete j src r Q1 Lk Hj _ Hr) eq_refl). cbn. now rewrite String.eqb_refl.
Qed.
Print Assumptions C58_killed_link_refuted.

(** two builds, [a] and [b], of different models started in one directory *)
Definition pair_of (a b : source) (d : dir) : sys := {| builds := [(a, PStart); (b, PStart)]; files := d |}.
Definition no_libs (c : source) : dir := {| cfile := Some c; libs := fun _ => None |}.

(** FINDING: without the lock the first build can return the functions of the other model, without any error *)
Theorem C58_race_refuted : forall md5 compiles defines a b c, complete compiles defines b ->
  exists l, nth_error (builds (srun md5 compiles defines (pair_of a b (no_libs c)) l)) 0 = Some (a, PDone (Ok (functions_of b))).
Proof.
  intros md5 compiles defines a b c Cb.
  destruct (lone_reach md5 compiles defines (pair_of a b (no_libs c)) 0 a _ _ _ eq_refl (preach_generate md5 compiles defines a (no_libs c))) as [n1 E1].
  destruct (lone_reach md5 compiles defines {| builds := [(a, PHash []); (b, PStart)]; files := set_cfile a (no_libs c) |} 1 b _ _ _ eq_refl (preach_generate md5 compiles defines b (set_cfile a (no_libs c)))) as [n2 E2].
  assert (preach md5 compiles defines a (PHash [], set_cfile b (no_libs c)) (PDone (Ok (functions_of b)), set_lib (md5 b) (Linked b) (set_lib (md5 b) Incomplete (set_cfile b (no_libs c))))) as R.
  { eapply preach_trans; [apply preach_hash; reflexivity|]. eapply preach_trans; [apply preach_gcc; reflexivity|].
    eapply preach_trans; [eapply preach_link; [reflexivity|exact (proj1 Cb)]|]. eapply preach_trans; [apply preach_linked|].
    apply preach_load; [cbn; now rewrite String.eqb_refl|]. eapply complete_wanted, Cb. }
  destruct (lone_reach md5 compiles defines {| builds := [(a, PHash []); (b, PHash [])]; files := set_cfile b (no_libs c) |} 0 a _ _ _ eq_refl R) as [n3 E3].
  exists (repeat (Run 0) n1 ++ repeat (Run 1) n2 ++ repeat (Run 0) n3). rewrite !srun_app, E1. cbn [set_pc builds pair_of]. rewrite E2. cbn [set_pc builds].
  change (set_cfile b (set_cfile a (no_libs c))) with (set_cfile b (no_libs c)). rewrite E3. reflexivity.
Qed.
Print Assumptions C58_race_refuted.

(** FINDING: ... or store the other model's code under its own hash, and then every later build of that model, alone or locked, returns the
    functions of the other one *)
Theorem C58_race_poisons_refuted : forall md5 compiles defines a b c, complete compiles defines a -> complete compiles defines b -> md5 a <> md5 b ->
  exists l, let s1 := srun md5 compiles defines (pair_of a b (no_libs c)) l in
  nth_error (builds s1) 0 = Some (a, PDone (Ok (functions_of b))) /\ nth_error (builds s1) 1 = Some (b, PDone (Ok (functions_of b))) /\
  libs (files s1) (md5 a) = Some (Linked b) /\
  forall others l2 j r, quiet {| builds := others; files := files s1 |} -> locked md5 compiles defines {| builds := others; files := files s1 |} l2 ->
    nth_error others j = Some (a, PStart) -> nth_error (builds (srun md5 compiles defines {| builds := others; files := files s1 |} l2)) j = Some (a, PDone r) ->
    r = Ok (functions_of b).
Proof.
  intros md5 compiles defines a b c Ca Cb N.
  assert (preach md5 compiles defines a (PStart, no_libs c) (PGcc (md5 a), set_cfile a (no_libs c))) as R1.
  { eapply preach_trans; [apply preach_generate|]. eapply preach_trans; [apply preach_hash; reflexivity|]. apply preach_gcc; reflexivity. }
  set (d2 := set_lib (md5 b) (Linked b) (set_lib (md5 b) Incomplete (set_cfile b (set_cfile a (no_libs c))))).
  assert (preach md5 compiles defines b (PStart, set_cfile a (no_libs c)) (PDone (Ok (functions_of b)), d2)) as R2.
  { eapply preach_trans; [apply preach_generate|]. eapply preach_trans; [apply preach_hash; reflexivity|]. eapply preach_trans; [apply preach_gcc; reflexivity|].
    eapply preach_trans; [eapply preach_link; [reflexivity|exact (proj1 Cb)]|]. eapply preach_trans; [apply preach_linked|].
    apply preach_load; [cbn; now rewrite String.eqb_refl|]. eapply complete_wanted, Cb. }
  set (d3 := set_lib (md5 a) (Linked b) (set_lib (md5 a) Incomplete d2)).
  assert (preach md5 compiles defines a (PGcc (md5 a), d2) (PDone (Ok (functions_of b)), d3)) as R3.
  { eapply preach_trans; [eapply preach_link; [reflexivity|exact (proj1 Cb)]|]. eapply preach_trans; [apply preach_linked|].
    apply preach_load; [cbn; now rewrite String.eqb_refl|]. eapply complete_wanted, Cb. }
  destruct (lone_reach md5 compiles defines (pair_of a b (no_libs c)) 0 a _ _ _ eq_refl R1) as [n1 E1].
  destruct (lone_reach md5 compiles defines {| builds := [(a, PGcc (md5 a)); (b, PStart)]; files := set_cfile a (no_libs c) |} 1 b _ _ _ eq_refl R2) as [n2 E2].
  destruct (lone_reach md5 compiles defines {| builds := [(a, PGcc (md5 a)); (b, PDone (Ok (functions_of b)))]; files := d2 |} 0 a _ _ _ eq_refl R3) as [n3 E3].
  exists (repeat (Run 0) n1 ++ repeat (Run 1) n2 ++ repeat (Run 0) n3). cbn zeta. rewrite !srun_app, E1. cbn [set_pc builds pair_of]. rewrite E2. cbn [set_pc builds].
  rewrite E3. cbn [set_pc builds files].
  assert (libs d3 (md5 a) = Some (Linked b)) as L3 by (cbn; now rewrite String.eqb_refl).
  split; [reflexivity|]. split; [reflexivity|]. split; [exact L3|]. intros others l2 j r Q Lk Hj Hr.
  refine (proj1 (proj2 (C58_library_decides md5 compiles defines _ l2 (Linked b) j a r Q Lk Hj L3 Hr)) b eq_refl _). exact (complete_wanted _ _ _ Cb).
Qed.
Print Assumptions C58_race_poisons_refuted.

(** FINDING: even two builds of the same model are not safe: one reopens the C file while the other compiles, the empty file becomes the library
    of the model, and from then on every build of it raises RuntimeError *)
Theorem C58_same_model_refuted : forall md5 compiles defines a c, complete compiles defines a -> compiles [] = true -> defines [] "forward" = false ->
  exists l, let s1 := srun md5 compiles defines (pair_of a a (no_libs c)) l in
  nth_error (builds s1) 0 = Some (a, PDone (Raise RuntimeError)) /\
  forall others l2 j r, quiet {| builds := others; files := files s1 |} -> locked md5 compiles defines {| builds := others; files := files s1 |} l2 ->
    nth_error others j = Some (a, PStart) -> nth_error (builds (srun md5 compiles defines {| builds := others; files := files s1 |} l2)) j = Some (a, PDone r) ->
    r = Raise RuntimeError.
Proof.
  intros md5 compiles defines a c Ca CE DE.
  assert (preach md5 compiles defines a (PStart, no_libs c) (PGcc (md5 a), set_cfile a (no_libs c))) as R1.
  { eapply preach_trans; [apply preach_generate|]. eapply preach_trans; [apply preach_hash; reflexivity|]. apply preach_gcc; reflexivity. }
  set (d2 := set_cfile [] (set_cfile a (no_libs c))). set (d3 := set_lib (md5 a) (Linked []) (set_lib (md5 a) Incomplete d2)).
  assert (preach md5 compiles defines a (PGcc (md5 a), d2) (PDone (Raise RuntimeError), d3)) as R3.
  { eapply preach_trans; [eapply preach_link; [reflexivity|exact CE]|]. eapply preach_trans; [apply preach_linked|]. fold d3. apply preach_step.
    cbn [pstep length nth_error wanted]. unfold external. assert (libs d3 (md5 a) = Some (Linked [])) as L by (cbn; now rewrite String.eqb_refl). rewrite L, DE. apply preach_refl. }
  destruct (lone_reach md5 compiles defines (pair_of a a (no_libs c)) 0 a _ _ _ eq_refl R1) as [n1 E1].
  destruct (lone_reach md5 compiles defines {| builds := [(a, PGcc (md5 a)); (a, PWrite 0)]; files := d2 |} 0 a _ _ _ eq_refl R3) as [n3 E3].
  exists (repeat (Run 0) n1 ++ [Run 1] ++ repeat (Run 0) n3). cbn zeta. rewrite !srun_app, E1. cbn [set_pc builds pair_of].
  change (srun md5 compiles defines {| builds := [(a, PGcc (md5 a)); (a, PStart)]; files := set_cfile a (no_libs c) |} [Run 1]) with {| builds := [(a, PGcc (md5 a)); (a, PWrite 0)]; files := d2 |}.
  rewrite E3. cbn [set_pc builds files].
  assert (libs d3 (md5 a) = Some (Linked [])) as L3 by (cbn; now rewrite String.eqb_refl).
  split; [reflexivity|]. intros others l2 j r Q Lk Hj Hr.
  refine (proj2 (proj2 (C58_library_decides md5 compiles defines _ l2 (Linked []) j a r Q Lk Hj L3 Hr)) [] "forward" eq_refl _ DE). now left.
Qed.
Print Assumptions C58_same_model_refuted.
