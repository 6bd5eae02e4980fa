(** C58, continued: what the C file holds after any number of overlapping builds of one model. *)
From Verif Require Import Base ArtModel ArtSpec ArtProofs.

Lemma nth_error_firstn' : forall A (l : list A) k j, nth_error (firstn k l) j = if Nat.ltb j k then nth_error l j else None.
Proof. induction l as [|a l IH]; intros [|k] [|j]; cbn [firstn nth_error]; try reflexivity; [now destruct (Nat.ltb (S j) (S k))|]. rewrite IH. reflexivity. Qed.
Lemma nth_error_skipn' : forall A k (l : list A) j, nth_error (skipn k l) j = nth_error l (k + j).
Proof. induction k as [|k IH]; intros l j; [reflexivity|]. destruct l as [|a l]; [now destruct j|]. cbn. apply IH. Qed.
Lemma write_at_length : forall k a l, length (write_at k a l) = Nat.max (length l) (S k).
Proof. intros k a l. unfold write_at. rewrite app_length, firstn_length, app_length, repeat_length. cbn [length]. rewrite skipn_length. lia. Qed.
(** a write changes its own byte; what it skips over reads as zeros *)
Lemma write_at_nth : forall k a l j, nth_error (write_at k a l) j = if Nat.eqb j k then Some a else if Nat.ltb j (length l) then nth_error l j else if Nat.ltb j k then Some nul else None.
Proof.
  intros k a l j. unfold write_at. set (f := firstn k (l ++ repeat nul (k - length l))). assert (length f = k) as Lf by (unfold f; rewrite firstn_length, app_length, repeat_length; lia).
  destruct (Nat.eqb_spec j k) as [->|N]; [rewrite nth_error_app2 by lia; now rewrite Lf, Nat.sub_diag|].
  destruct (Nat.lt_ge_cases j k) as [H|H].
  - rewrite nth_error_app1 by lia. unfold f. rewrite nth_error_firstn'. destruct (Nat.ltb_spec j k); [|lia]. destruct (Nat.ltb_spec j (length l)); [now rewrite nth_error_app1|].
    rewrite nth_error_app2 by lia. apply nth_error_repeat. lia.
  - rewrite nth_error_app2 by lia. rewrite Lf. destruct (j - k) as [|m] eqn:E; [lia|]. cbn [nth_error]. rewrite nth_error_skipn'. replace (S k + m)%nat with j by lia.
    destruct (Nat.ltb_spec j (length l)); [reflexivity|]. destruct (Nat.ltb_spec j k); [lia|]. apply nth_error_None. lia.
Qed.

(** no build is killed while it writes the C file *)
Definition writers_survive (md5 : source -> string) (compiles : source -> bool) (defines : source -> string -> bool) (s : sys) (l : list event) : Prop :=
  forall l1 i l2 src k, l = l1 ++ Kill i :: l2 -> nth_error (builds (srun md5 compiles defines s l1)) i <> Some (src, PWrite k).

(** the file is that of the last build that opened it: [K] bytes of it are right, and nothing is beyond the end *)
Definition coming (a : source) (s : sys) : Prop :=
  exists l K, cfile (files s) = Some l /\ length l <= length a /\ K <= length l /\ (forall j, j < K -> nth_error l j = nth_error a j) /\
    (K = length a \/ exists i, nth_error (builds s) i = Some (a, PWrite K)).

Lemma pc_step_cfile : forall md5 compiles defines a q d p d', pstep md5 compiles defines a q d = (p, d') -> q <> PStart -> (forall k, q <> PWrite k) -> cfile d' = cfile d.
Proof. intros md5 compiles defines a q d p d' E N1 N2. destruct (pstep_cfile _ _ _ _ _ _ _ _ E) as [X|[X|[k X]]]; [exact X|contradiction|now apply N2 in X]. Qed.
Lemma coming_keep : forall a s bs d, coming a s -> cfile d = cfile (files s) -> (forall i k, nth_error (builds s) i = Some (a, PWrite k) -> nth_error bs i = Some (a, PWrite k)) -> coming a {| builds := bs; files := d |}.
Proof.
  intros a s bs d (l & K & C & L1 & L2 & PR & LO) E H. exists l, K. cbn [files builds]. rewrite E. repeat split; try assumption. destruct LO as [LO|[i LO]]; [now left|]. right. exists i. now apply H.
Qed.
Lemma coming_step : forall md5 compiles defines a s e, (forall i src p, nth_error (builds s) i = Some (src, p) -> src = a) ->
  (forall i src k, e = Kill i -> nth_error (builds s) i <> Some (src, PWrite k)) -> coming a s -> coming a (sstep md5 compiles defines s e).
Proof.
  intros md5 compiles defines a s e SA NK H. destruct e as [i|i|i]; cbn [sstep].
  - destruct (nth_error (builds s) i) as [[src q]|] eqn:E; [|exact H]. assert (src = a) as -> by (now apply (SA _ _ _ E)). clear NK.
    destruct (pstep md5 compiles defines a q (files s)) as [p d] eqn:EP.
    assert (q = PStart \/ (exists k, q = PWrite k) \/ (q <> PStart /\ forall k, q <> PWrite k)) as [->|[[k ->]|[N1 N2]]].
    { destruct q; try (right; right; split; [discriminate|discriminate]); [now left|right; left; eauto]. }
    + cbn [pstep] in EP. inversion EP; subst p d. exists [], 0. cbn [files builds cfile set_cfile length]. repeat split; try lia. right. exists i. rewrite nth_set_pc, Nat.eqb_refl, E. reflexivity.
    + destruct H as (l & K & C & L1 & L2 & PR & LO). cbn [pstep] in EP. destruct (nth_error a k) as [x|] eqn:EX.
      * rewrite C in EP. inversion EP; subst p d. assert (k < length a) as Hk by (apply nth_error_Some; congruence).
        assert (forall j, j < K -> nth_error (write_at k x l) j = nth_error a j) as PR'.
        { intros j Hj. rewrite write_at_nth. destruct (Nat.eqb_spec j k) as [->|N]; [now symmetry|]. destruct (Nat.ltb_spec j (length l)); [now apply PR|lia]. }
        destruct LO as [LO|[i' LO]].
        -- exists (write_at k x l), K. cbn [files builds cfile set_cfile]. rewrite write_at_length. split; [reflexivity|]. split; [lia|]. split; [lia|]. split; [exact PR'|]. now left.
        -- destruct (Nat.eq_dec i i') as [<-|NE].
           ++ rewrite E in LO. inversion LO; subst k. exists (write_at K x l), (S K). cbn [files builds cfile set_cfile]. rewrite write_at_length. split; [reflexivity|]. split; [lia|]. split; [lia|]. split.
              ** intros j Hj. destruct (Nat.eq_dec j K) as [->|N]; [|apply PR'; lia]. rewrite write_at_nth, Nat.eqb_refl. now symmetry.
              ** right. exists i. rewrite nth_set_pc, Nat.eqb_refl, E. reflexivity.
           ++ exists (write_at k x l), K. cbn [files builds cfile set_cfile]. rewrite write_at_length. split; [reflexivity|]. split; [lia|]. split; [lia|]. split; [exact PR'|]. right. exists i'. rewrite nth_set_pc. destruct (Nat.eqb_spec i i'); [contradiction|exact LO].
      * inversion EP; subst p d. exists l, K. cbn [files builds]. repeat split; try assumption. destruct LO as [LO|[i' LO]]; [now left|]. destruct (Nat.eq_dec i i') as [<-|NE].
        -- rewrite E in LO. inversion LO; subst k. apply nth_error_None in EX. left. lia.
        -- right. exists i'. rewrite nth_set_pc. destruct (Nat.eqb_spec i i'); [contradiction|exact LO].
    + apply (coming_keep a s); [exact H|eapply pc_step_cfile; eassumption|]. intros j k Hj. rewrite nth_set_pc. destruct (Nat.eqb_spec i j) as [->|NE]; [|exact Hj]. rewrite E in Hj. inversion Hj; subst. now destruct (N2 k).
  - destruct (nth_error (builds s) i) as [[src q]|] eqn:E; [|exact H]. apply (coming_keep a s); [exact H|reflexivity|]. intros j k Hj. rewrite nth_set_pc. destruct (Nat.eqb_spec i j) as [->|NE]; [|exact Hj]. now destruct (NK j a k eq_refl).
  - destruct (nth_error (builds s) i) as [[src q]|] eqn:E; [|exact H]. apply (coming_keep a s); [exact H|reflexivity|]. intros j k Hj. rewrite nth_set_pc. destruct (Nat.eqb_spec i j) as [->|NE]; [|exact Hj].
    rewrite E in Hj. inversion Hj; subst. rewrite E. reflexivity.
Qed.
Lemma sources_run : forall md5 compiles defines a l s, (forall i src p, nth_error (builds s) i = Some (src, p) -> src = a) -> forall i src p, nth_error (builds (srun md5 compiles defines s l)) i = Some (src, p) -> src = a.
Proof.
  intros md5 compiles defines a l s H. induction l as [|e l IH] using rev_ind; [exact H|]. intros i src p E. rewrite srun_snoc in E. destruct (sstep_builds _ _ _ _ _ _ _ _ E) as (q & Hq & _). eapply IH, Hq.
Qed.

(** any number of builds of one model, overlapping in any way, with kills and compiler failures anywhere but no kill of a build that is writing: as soon as
    one of them has opened the C file and none is still writing, the file is the C code of the model - although they truncate and overwrite each other *)
Theorem C58_same_model_file : forall md5 compiles defines a s l1 i l2, (forall j src p, nth_error (builds s) j = Some (src, p) -> src = a) ->
  nth_error (builds (srun md5 compiles defines s l1)) i = Some (a, PStart) -> writers_survive md5 compiles defines s (l1 ++ Run i :: l2) ->
  let s' := srun md5 compiles defines s (l1 ++ Run i :: l2) in
  (forall j src k, nth_error (builds s') j <> Some (src, PWrite k)) -> cfile (files s') = Some a.
Proof.
  intros md5 compiles defines a s l1 i l2 SA H0 WS s' NW.
  assert (coming a s') as (l & K & C & L1 & L2 & PR & LO).
  { unfold s'. clear s' NW. induction l2 as [|e l2 IH] using rev_ind.
    - rewrite srun_snoc. cbn [sstep]. rewrite H0. cbn [pstep]. exists [], 0. cbn [files builds cfile set_cfile length]. repeat split; try lia. right. exists i. rewrite nth_set_pc, Nat.eqb_refl, H0. reflexivity.
    - rewrite app_comm_cons, app_assoc, srun_snoc. apply coming_step.
      + now apply sources_run.
      + intros j src k -> E. apply (WS (l1 ++ Run i :: l2) j [] src k); [now rewrite app_comm_cons, app_assoc|exact E].
      + apply IH. intros m1 j m2 src k E. apply (WS m1 j (m2 ++ [e])). rewrite app_comm_cons, app_assoc, E, <- app_assoc. reflexivity. }
  rewrite C. f_equal. destruct LO as [LO|[j LO]]; [|now apply NW in LO]. assert (length l = length a) as LL by lia.
  assert (forall (x y : source), length x = length y -> (forall j, j < length y -> nth_error x j = nth_error y j) -> x = y) as EXT.
  { clear. induction x as [|u x IH]; intros [|v y] L H; try discriminate; [reflexivity|]. f_equal; [specialize (H 0 ltac:(cbn; lia)); cbn in H; congruence|]. apply IH; [now injection L|]. intros j Hj. exact (H (S j) ltac:(cbn; lia)). }
  apply EXT; [exact LL|]. intros j Hj. apply PR. lia.
Qed.
Print Assumptions C58_same_model_file.
(** the hypotheses are met by builds that really overlap: two builds write [a; b] byte by byte in turns, the second having truncated the file under the first *)
Example C58_same_model_file_nonvacuous : forall md5 compiles defines (x y : ascii),
  let s := {| builds := [([x; y], PStart); ([x; y], PStart)]; files := {| cfile := None; libs := fun _ => None |} |} in
  let l := [Run 0; Run 0; Run 1; Run 0; Run 1; Run 0; Run 1; Run 1] in
  (exists l1 l2, l = l1 ++ Run 1 :: l2 /\ nth_error (builds (srun md5 compiles defines s l1)) 1 = Some ([x; y], PStart) /\ nth_error (builds (srun md5 compiles defines s l1)) 0 = Some ([x; y], PWrite 1)) /\
  writers_survive md5 compiles defines s l /\ (forall j src k, nth_error (builds (srun md5 compiles defines s l)) j <> Some (src, PWrite k)) /\ cfile (files (srun md5 compiles defines s l)) = Some [x; y].
Proof.
  intros md5 compiles defines x y s l. split; [exists [Run 0; Run 0], [Run 0; Run 1; Run 0; Run 1; Run 1]; repeat split; reflexivity|]. split.
  - intros l1 i l2 src k E. exfalso. assert (In (Kill i) l) as I by (rewrite E; apply in_or_app; right; now left). cbn in I. intuition discriminate.
  - split; [|reflexivity]. intros j src k. destruct j as [|[|j]]; cbn; try discriminate. destruct j; discriminate.
Qed.
