(** C39 (continued): what a solve leaves behind when the solver reports a failure. *)
From Verif Require Import Base RBase LogModel LogSpec LogProofs LogProps.

Section P.
Context {V : Type}.
Variables (nmesh scales : list R) (nvs : nat) (mesh_scale : list R -> R) (other : list R -> nat -> list R) (viol : list row -> V).
Notation RR := (result_rows nmesh scales nvs mesh_scale other).
Notation solvek k := (@solve V nmesh scales nvs mesh_scale other viol (Some k)).

(** A solve that ends with an error status raises RuntimeError and skips the final logging: results.csv, the merged file and the metrics file keep
    their old contents, and the iteration files stay on disk, one for every recorded iteration that is a multiple of the period, with the point
    evaluated last before that iteration's last record. *)
Theorem C39_failed_solve : forall k glob es (s : lst V), (0 < k)%Z -> l_files s = [] -> (l_x s <> None \/ exists x r, es = EObj x :: r) ->
  exists s', solvek k glob true es s = (s', Raise RuntimeError) /\
    l_results s' = l_results s /\ l_all s' = l_all s /\ l_metrics s' = l_metrics s /\
    (forall i, In i (iters (recorded (l_num s) (l_x s) es)) -> (Z.of_nat i mod k)%Z = 0%Z ->
       exists x, point_at i (recorded (l_num s) (l_x s) es) None = Some x /\ nget i (l_files s') = Some (RR x i)) /\
    (forall i, ~ (In i (iters (recorded (l_num s) (l_x s) es)) /\ (Z.of_nat i mod k)%Z = 0%Z) -> nget i (l_files s') = None).
Proof using.
  intros k glob es s Hk Hf Hx. unfold solve.
  assert (forall q, In q (recorded (l_num s) (l_x s) es) -> snd q <> None) as HN.
  { intros q Hq. destruct Hx as [Hx|(x & r & ->)].
    - destruct (recorded_points _ _ _ _ Hq) as [E|(y & E & _)]; congruence.
    - cbn [recorded] in Hq. destruct (recorded_points _ _ _ _ Hq) as [->|(y & -> & _)]; discriminate. }
  destruct (run_ok nmesh scales nvs mesh_scale other k Hk es s []) as (s1 & E1 & [_ I1] & X1 & N1 & H1 & R1 & A1 & M1).
  - split; rewrite Hf; [constructor|]. intro i. cbn. now rewrite andb_false_r.
  - intros _. right. now apply Forall_forall.
  - rewrite E1. cbn [app] in I1. exists s1. split; [reflexivity|]. split; [assumption|]. split; [assumption|]. split; [assumption|]. split.
    + intros i Hi Hm. set (rs := recorded (l_num s) (l_x s) es) in *.
      assert (exists x, point_at i rs None = Some x) as [x Ex].
      { assert (forall d, (d <> None \/ In i (iters rs)) -> point_at i rs d <> None) as K.
        { clear Hi I1 E1 N1 H1. induction rs as [|[m p] rs IH]; intros d Hd; cbn [point_at]; [destruct Hd as [Hd|[]]; exact Hd|]. apply IH; [intros q Hq; apply HN; now right|].
          destruct (Nat.eqb_spec (m_iter m) i); [left; exact (HN (m, p) (or_introl eq_refl))|]. destruct Hd as [Hd|[Hd|Hd]]; [now left|cbn in Hd; congruence|now right]. }
        specialize (K None (or_intror Hi)). destruct (point_at i rs None) as [x|]; [now exists x|congruence]. }
      exists x. split; [exact Ex|]. rewrite I1. rewrite due_k by assumption. rewrite Hm. cbn [Z.eqb]. replace (existsb (Nat.eqb i) (iters rs)) with true.
      * cbn [andb]. now rewrite Ex.
      * symmetry. apply existsb_exists. exists i. split; [assumption|apply Nat.eqb_refl].
    + intros i Hn. rewrite I1. rewrite due_k by assumption. destruct (Z.eqb_spec (Z.of_nat i mod k) 0) as [E|E]; [|reflexivity]. cbn [andb].
      destruct (existsb (Nat.eqb i) (iters (recorded (l_num s) (l_x s) es))) eqn:Ee; [|reflexivity]. exfalso. apply Hn. split; [|exact E].
      apply existsb_exists in Ee as (j & Hj & Ej). apply Nat.eqb_eq in Ej. congruence.
Qed.
(** A callback for an iteration that is to be written, before any evaluation of the objective, is a TypeError that ends the solve: whatever the solver
    would have done next, no file is written or changed; only the metrics of that callback have been noted. *)
Theorem C39_no_point : forall k glob failed m es (s : lst V), (0 < k)%Z -> l_x s = None -> (m_alg m <> 0%nat \/ l_num s <> Some (m_iter m)) -> (Z.of_nat (m_iter m) mod k)%Z = 0%Z ->
  exists s', solvek k glob failed (ECall m :: es) s = (s', Raise TypeError) /\ l_files s' = l_files s /\ l_results s' = l_results s /\ l_all s' = l_all s /\ l_metrics s' = l_metrics s /\
    l_x s' = None /\ l_num s' = l_num s /\ l_hist s' = l_hist s ++ [m].
Proof using.
  intros k glob failed m es s Hk Hx Hs Hm. unfold solve. cbn [run step]. unfold intermediate.
  replace (skipped m s) with false.
  2:{ symmetry. unfold skipped. destruct (Nat.eqb_spec (m_alg m) 0) as [E|E]; [|reflexivity]. cbn [andb]. destruct Hs as [Hs|Hs]; [contradiction|]. destruct (l_num s) as [n|]; [|reflexivity]. apply Nat.eqb_neq. congruence. }
  unfold log. rewrite due_k by assumption. rewrite Hm. cbn [Z.eqb]. rewrite Hx. eexists. split; [reflexivity|]. cbn. repeat split.
Qed.
End P.
Print Assumptions C39_failed_solve.
Print Assumptions C39_no_point.

(** Finding: the files of a failed solve are merged into the output of the next solve of the same problem.  A failed solve with iterations 0..3, then a
    successful one with iterations 0 and 1: the merged file of the second solve contains iteration 2 of the first one. *)
Definition two_calls (a : R) : list event :=
  [EObj (ex_pt a); ECall {| m_alg := 0; m_iter := 0; m_rest := [] |}; EObj (ex_pt (a + 1)); ECall {| m_alg := 0; m_iter := 1; m_rest := [] |}].
Definition exsolve := @solve unit [0] [1; 1; 1; 1] 1 (vget 3) (fun _ _ => []) (fun _ => tt) (Some 1%Z) (fun l => l).

Theorem C39_failed_leftover_refuted : exists s1 s2 f l, exsolve true (ex_events 7) fresh = (s1, Raise RuntimeError) /\ exsolve false (two_calls 100) s1 = (s2, Ok tt) /\
  In 3%nat (iters (recorded None None (ex_events 7))) /\ ~ In 3%nat (iters (recorded (l_num s1) (l_x s1) (two_calls 100))) /\
  nget 3 (l_files s1) = Some f /\ l_all s2 = Some l /\ (forall r, In r f -> In r l) /\ f <> [].
Proof.
  do 4 eexists. split; [cbv -[Rplus Rmult IZR Rle_dec]; reflexivity|]. split; [cbv -[Rplus Rmult IZR Rle_dec sort_rows]; reflexivity|]. split; [cbn; auto|]. split; [cbn; intuition lia|]. split; [reflexivity|]. split; [reflexivity|]. split; [|discriminate].
  intros r Hr.
  assert (forall a l x, In x (a :: l) -> In x (insert_row a l)) as Hins.
  { intros a l x. induction l as [|b l IH]; intro H; cbn [insert_row]; [exact H|]. destruct (row_leb a b); [exact H|]. destruct H as [->|[->|H]]; [right; apply IH; now left|now left|right; apply IH; now right]. }
  assert (forall l x, In x l -> In x (sort_rows l)) as Hsort.
  { induction l as [|a l IH]; intros x H; [exact H|]. cbn [sort_rows]. apply Hins. destruct H as [->|H]; [now left|right; now apply IH]. }
  apply Hsort. destruct Hr as [<-|[]]. right. right. now left.
Qed.
Print Assumptions C39_failed_leftover_refuted.

Example C39_failed_nonvacuous : l_files (@fresh unit) = [] /\ (exists x r, ex_events 7 = EObj x :: r) /\ iters (recorded None None (ex_events 7)) = [0; 1; 2; 3]%nat.
Proof. split; [reflexivity|]. split; [do 2 eexists; reflexivity|reflexivity]. Qed.
