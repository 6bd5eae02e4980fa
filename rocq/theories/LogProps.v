(** C39: logging of the iterations of a solve. *)
From Verif Require Import Base RBase LogModel LogSpec LogProofs.

Lemma recorded_points : forall es prev cur r, In r (recorded prev cur es) -> snd r = cur \/ exists x, snd r = Some x /\ In x (points es).
Proof.
  induction es as [|[x|m] es IH]; intros prev cur r H; cbn [recorded points flat_map] in *; [contradiction| |].
  - destruct (IH _ _ _ H) as [E|(y & E & Hy)]; [right; exists x; split; [assumption|now left]|right; exists y; split; [assumption|now right]].
  - cbn [app]. destruct (_ && _)%bool; [now apply (IH prev)|]. destruct H as [<-|H]; [now left|]. now apply (IH (Some (m_iter m))).
Qed.
Lemma last_point_in : forall es cur, last_point cur es = cur \/ exists x, last_point cur es = Some x /\ In x (points es).
Proof.
  induction es as [|[x|m] es IH]; intro cur; cbn [last_point points flat_map]; [now left| |].
  - destruct (IH (Some x)) as [E|(y & E & Hy)]; [right; exists x; split; [assumption|now left]|right; exists y; split; [assumption|now right]].
  - apply IH.
Qed.
Lemma point_at_in : forall i rs d x, point_at i rs d = Some x -> d = Some x \/ In (Some x) (map snd rs).
Proof. intros i rs. induction rs as [|[m p] rs IH]; intros d x H; cbn [point_at map snd] in *; [now left|]. destruct (IH _ _ H) as [E|E]; [|right; now right]. destruct (Nat.eqb (m_iter m) i); [right; left; assumption|now left]. Qed.

Lemma map_fst_combine : forall A B (l : list A) (l' : list B), List.length l = List.length l' -> map fst (combine l l') = l.
Proof. intros A B l. induction l as [|a l IH]; intros [|b l'] H; try discriminate; [reflexivity|]. cbn. injection H as H. now rewrite IH. Qed.
Lemma sorted_lt_ext : forall a b, StronglySorted lt a -> StronglySorted lt b -> (forall i, In i a <-> In i b) -> a = b.
Proof.
  induction a as [|x a IH]; intros [|y b] Sa Sb H; [reflexivity|exfalso; apply (H y); now left|exfalso; apply (H x); now left|].
  apply StronglySorted_inv in Sa, Sb. destruct Sa as [Sa Fa], Sb as [Sb Fb]. rewrite Forall_forall in Fa, Fb.
  assert (x = y) as <-. { destruct (proj1 (H x) (or_introl eq_refl)) as [|Hx]; [auto|]. destruct (proj2 (H y) (or_introl eq_refl)) as [|Hy]; [auto|]. specialize (Fa y Hy). specialize (Fb x Hx). lia. }
  f_equal. apply IH; auto. intro i. split; intro Hi.
  - destruct (proj1 (H i) (or_intror Hi)) as [<-|]; [specialize (Fa x Hi); lia|assumption].
  - destruct (proj2 (H i) (or_intror Hi)) as [<-|]; [specialize (Fb x Hi); lia|assumption].
Qed.
Lemma last_default : forall (l : list nat) a d d', last (a :: l) d = last (a :: l) d'.
Proof. induction l as [|b l IH]; intros; [reflexivity|]. cbn [last] in *. destruct l; [reflexivity|]. apply (IH b). Qed.
Lemma counts_last : forall l n, counts_from n l -> (n <= last l n)%nat.
Proof. induction l as [|a l IH]; intros n H; [apply Nat.le_refl|]. destruct H as [Ha H]. specialize (IH a H). destruct l as [|b l]; [cbn; lia|]. change (last (a :: b :: l) n) with (last (b :: l) n). rewrite (last_default l b n a). lia. Qed.
Lemma last_cons : forall (l : list nat) a n, last (a :: l) n = last l a.
Proof. induction l as [|b l IH]; intros; [reflexivity|]. change (last (a :: b :: l) n) with (last (b :: l) n). apply last_default. Qed.
Lemma counts_recorded : forall es n cur, counts_from n (call_counts es) -> let it := iters (recorded (Some n) cur es) in let L := last (call_counts es) n in
  last it n = L /\ (forall i, In i it -> (n <= i <= L)%nat) /\ (forall i, (n < i <= L)%nat -> In i it).
Proof.
  induction es as [|[x|m] es IH]; intros n cur H it L; unfold it, L in *; clear it L; cbn [recorded call_counts flat_map app] in *.
  - cbn. repeat split; try lia; contradiction.
  - now apply IH.
  - fold (call_counts es) in *. destruct H as [Hm H]. rewrite last_cons. destruct (_ && _)%bool eqn:E.
    + apply andb_prop in E. destruct E as [_ E]. apply Nat.eqb_eq in E. rewrite E in *. now apply IH.
    + destruct (IH (m_iter m) cur H) as (I1 & I2 & I3). pose proof (counts_last _ _ H) as CL. unfold iters in *. cbn [map fst]. rewrite last_cons. split; [assumption|]. split.
      * intros i [<-|Hi]; [lia|]. specialize (I2 i Hi). lia.
      * intros i Hi. destruct (Nat.eq_dec i (m_iter m)) as [->|Hne]; [now left|]. right. apply I3. lia.
Qed.
(** the records of a solve whose counts are those of the solver, when the previous solve did not end at iteration 0 *)
Lemma solver_recorded : forall es prev cur, solver_counts (call_counts es) -> prev <> Some 0%nat -> exists rs m p, recorded prev cur es = rs ++ [(m, p)] /\ m_iter m = last (call_counts es) 0%nat /\
  forall i, In i (iters (recorded prev cur es)) <-> (i <= last (call_counts es) 0)%nat.
Proof.
  intros es prev cur H Hp. assert (last (iters (recorded prev cur es)) 0%nat = last (call_counts es) 0%nat /\ recorded prev cur es <> [] /\ forall i, In i (iters (recorded prev cur es)) <-> (i <= last (call_counts es) 0)%nat) as (H1 & H2 & H3).
  { revert cur H. induction es as [|[x|m] es IH]; intros cur H; cbn [recorded call_counts flat_map app] in *; [contradiction|now apply IH|]. fold (call_counts es) in *. destruct H as [Hm H]. clear IH.
    replace (Nat.eqb (m_alg m) 0 && _)%bool with false; [|destruct prev as [n|]; [|now rewrite andb_false_r]; rewrite Hm; destruct n; [congruence|now rewrite andb_false_r]].
    rewrite Hm. destruct (counts_recorded es 0 cur H) as (I1 & I2 & I3). pose proof (counts_last _ _ H) as CL. unfold iters in *. cbn [map fst]. rewrite Hm, !last_cons. split; [assumption|]. split; [discriminate|]. intro i. split.
    - intros [<-|Hi]; [lia|]. now apply I2.
    - intro Hi. destruct i; [now left|]. right. apply I3. lia. }
  destruct (exists_last H2) as (rs & [m p] & E). exists rs, m, p. split; [exact E|]. split; [|assumption]. rewrite <- H1, E. unfold iters. rewrite map_app. cbn [map fst]. now rewrite last_last.
Qed.

Section P.
Context {V : Type}.
Variables (nmesh scales : list R) (nvs : nat) (mesh_scale : list R -> R) (other : list R -> nat -> list R) (viol : list row -> V).
Notation RR := (result_rows nmesh scales nvs mesh_scale other).
Notation solvek k := (@solve V nmesh scales nvs mesh_scale other viol (Some k)).

(** the rows written for a point: one per stage, with the physical (unscaled) values of the variables of the stage, in the order of the decision
    vector.  (The mesh column is the subject of [C39_mesh_column_refuted].) *)
Theorem C39_row_contents : forall x i, List.length x = List.length scales -> List.length (RR x i) = List.length nmesh /\
  forall k, (k < List.length nmesh)%nat -> exists r, nth_error (RR x i) k = Some r /\ r_iter r = i /\ r_other r = other x k /\
    forall j, (j < nvs)%nat -> (k * nvs + j < List.length x)%nat -> nth_error (r_vars r) j = Some (vget (k * nvs + j) x * vget (k * nvs + j) scales).
Proof using.
  intros x i L. unfold result_rows. rewrite map_length, seq_length. split; [reflexivity|]. intros k Hk. rewrite nth_error_map. rewrite (nth_error_nth' _ 0%nat) by now rewrite seq_length. rewrite seq_nth by assumption. cbn [option_map plus]. eexists. split; [reflexivity|]. cbn [r_iter r_other r_vars]. split; [reflexivity|]. split; [reflexivity|]. intros j Hj Hb.
  assert (List.length (vmul x scales) = List.length x) as LV by (unfold vmul; rewrite map2_length; lia).
  assert (vget j (firstn nvs (skipn (k * nvs) (vmul x scales))) = vget (k * nvs + j) (vmul x scales)) as E.
  { unfold vget. clear - Hj. rewrite <- (firstn_skipn (k * nvs) (vmul x scales)) at 2. destruct (Nat.le_gt_cases (List.length (vmul x scales)) (k * nvs)) as [Hle|Hgt].
    - rewrite skipn_all2 by assumption. rewrite firstn_nil. rewrite app_nil_r. rewrite !nth_overflow; [reflexivity|rewrite firstn_length; lia|cbn; lia].
    - rewrite app_nth2 by (rewrite firstn_length; lia). rewrite firstn_length. replace (k * nvs + j - Nat.min (k * nvs) (List.length (vmul x scales)))%nat with j by lia. rewrite <- (firstn_skipn nvs (skipn (k * nvs) (vmul x scales))) at 2. destruct (Nat.lt_ge_cases j (List.length (firstn nvs (skipn (k * nvs) (vmul x scales))))).
      + now rewrite app_nth1.
      + rewrite nth_overflow by assumption. rewrite firstn_length in *. rewrite firstn_skipn. rewrite nth_overflow by lia. reflexivity. }
  assert (vget (k * nvs + j) (vmul x scales) = vget (k * nvs + j) x * vget (k * nvs + j) scales) as E2.
  { unfold vmul, vget. now apply map2_nth. }
  rewrite <- E2, <- E. unfold vget. apply nth_error_nth'. rewrite firstn_length, skipn_length. lia.
Qed.

(** One solve that ends normally, from any state without leftover iteration files: for every sequence of evaluations and callbacks with at least one
    recorded callback (the last recorded one is [mN]) after a first evaluation, and every order in which the directory is listed, no temporary file
    is left, results.csv holds the last evaluated point, and the merged file holds exactly the recorded iterations that are multiples of the period,
    and the last one, in increasing order, each once, with the point evaluated last before (the last record of) that iteration. *)
Theorem C39_solve : forall k glob es (s : lst V) rs mN pN xN, (0 < k)%Z -> (forall i j, (i < j < List.length nmesh)%nat -> vget i nmesh < vget j nmesh) ->
  listing glob -> l_files s = [] -> (l_x s <> None \/ exists x r, es = EObj x :: r) -> (forall x, l_x s = Some x \/ In x (points es) -> 0 < mesh_scale x) ->
  recorded (l_num s) (l_x s) es = rs ++ [(mN, pN)] -> last_point (l_x s) es = Some xN ->
  exists s' its, solvek k glob false es s = (s', Ok tt) /\ l_files s' = [] /\ l_results s' = Some (RR xN (m_iter mN)) /\
    StronglySorted lt its /\ (forall i, In i its <-> i = m_iter mN \/ ((Z.of_nat i mod k)%Z = 0%Z /\ In i (iters (rs ++ [(mN, pN)])))) /\
    l_all s' = Some (flat_map (fun i => if Nat.eqb i (m_iter mN) then RR xN i else match point_at i (rs ++ [(mN, pN)]) None with Some x => RR x i | None => [] end) its) /\
    l_hist s' = l_hist s ++ map fst (rs ++ [(mN, pN)]) /\ l_num s' = Some (m_iter mN) /\ l_x s' = Some xN.
Proof using.
  intros k glob es s rs mN pN xN Hk Hasc Hg Hf Hx Hpos Hr Hlast. unfold solve.
  destruct (run_ok nmesh scales nvs mesh_scale other k Hk es s []) as (s1 & E1 & I1 & X1 & N1 & H1 & _).
  - split; rewrite Hf; [constructor|]. intro i. cbn. now rewrite andb_false_r.
  - intro E. destruct Hx as [Hx|(x & r & ->)]; [contradiction|]. cbn [recorded]. right. apply Forall_forall. intros q Hq. destruct (recorded_points _ _ _ _ Hq) as [->|(y & -> & _)]; discriminate.
  - cbn [app] in *. rewrite Hr in *. rewrite E1. rewrite rev_app_distr in N1. cbn [rev app] in N1. rewrite Hlast in X1.
    destruct (final_ok nmesh scales nvs mesh_scale other viol k Hk Hasc glob s1 (rs ++ [(mN, pN)]) (m_iter mN) xN) as (s2 & js & E2 & F2 & R2 & A2 & H2 & N2 & X2 & _).
    + assumption.
    + assumption.
    + assumption.
    + assumption.
    + unfold iters. rewrite map_app. apply in_or_app. right. now left.
    + apply Hpos. destruct (last_point_in es (l_x s)) as [E|(y & E & Hy)]; [left; congruence|right; congruence].
    + intros i x E. apply point_at_in in E. destruct E as [|E]; [discriminate|]. apply in_map_iff in E. destruct E as (r & E & Hin). rewrite <- Hr in Hin. apply Hpos. destruct (recorded_points _ _ _ _ Hin) as [E'|(y & E' & Hy)]; [left|right]; congruence.
    + exists s2, (its_of k (rs ++ [(mN, pN)]) (m_iter mN)). split; [exact E2|]. split; [exact F2|]. split; [exact R2|]. split; [apply its_sorted|]. split.
      { intro i. rewrite its_in. rewrite due_k by assumption. now rewrite Z.eqb_eq. }
      split; [|split; [rewrite H2, H1; reflexivity|split; assumption]]. rewrite A2. f_equal. rewrite !flat_map_concat_map. f_equal. apply map_ext. intro i. unfold block, rows_opt. destruct (Nat.eqb_spec i (m_iter mN)) as [->|]; reflexivity.
Qed.
Print Assumptions C39_solve.

(** what a solve should leave in the merged file: the multiples of the period below the last iteration, and the last iteration *)
Definition wanted (k : Z) (N : nat) : list nat := filter (fun i => Z.eqb (Z.of_nat i mod k) 0) (seq 0 N) ++ [N].
Lemma wanted_sorted : forall k N, StronglySorted lt (wanted k N).
Proof using.
  intros k N. unfold wanted. pose proof (filter_nat_sorted (fun i => Z.eqb (Z.of_nat i mod k) 0) _ (seq_sorted N 0)) as S. assert (forall i, In i (filter (fun i => Z.eqb (Z.of_nat i mod k) 0) (seq 0 N)) -> (i < N)%nat) as B by (intros i Hi; apply filter_In in Hi; destruct Hi as [Hi _]; apply in_seq in Hi; lia).
  revert S B. generalize (filter (fun i => Z.eqb (Z.of_nat i mod k) 0) (seq 0 N)) as l. induction l as [|x l IH]; intros S B; cbn [app]; [repeat constructor|]. apply StronglySorted_inv in S. destruct S as [S F]. constructor; [apply IH; [assumption|intros; apply B; now right]|]. apply Forall_app. split; [assumption|]. repeat constructor. apply B. now left.
Qed.
(** a solve in which the solver counts its iterations 0, 1, 2, ... (with repetitions), after a previous solve (if any) that did not end at iteration 0 *)
Theorem C39_solver_run : forall k glob x0 es' (s : lst V) es, es = EObj x0 :: es' -> (0 < k)%Z -> (forall i j, (i < j < List.length nmesh)%nat -> vget i nmesh < vget j nmesh) ->
  listing glob -> l_files s = [] -> l_num s <> Some 0%nat -> (forall x, In x (points es) -> 0 < mesh_scale x) -> solver_counts (call_counts es) ->
  let N := last (call_counts es) 0%nat in
  exists s' pt, solvek k glob false es s = (s', Ok tt) /\ l_files s' = [] /\ l_num s' = Some N /\ (exists xN, last_point None es = Some xN /\ l_results s' = Some (RR xN N) /\ pt N = xN) /\
    l_all s' = Some (flat_map (fun i => RR (pt i) i) (wanted k N)) /\
    (forall i, (i < N)%nat -> Some (pt i) = point_at i (recorded (l_num s) None es) None) /\ l_hist s' = l_hist s ++ map fst (recorded (l_num s) None es).
Proof using.
  intros k glob x0 es' s es Hes Hk Hasc Hg Hf Hn Hpos HC N. destruct (solver_recorded es (l_num s) (l_x s) HC Hn) as (rs & m & p & ER & EM & EI). 
  assert (forall prev cur cur', recorded prev cur es = recorded prev cur' es) as RC by (intros; subst es; reflexivity).
  assert (forall cur cur', last_point cur es = last_point cur' es) as LC by (intros; subst es; reflexivity).
  assert (exists xN, last_point None es = Some xN /\ In xN (points es)) as (xN & EL & HxN).
  { subst es. cbn [last_point]. destruct (last_point_in es' (Some x0)) as [->|(y & -> & Hy)]; eexists; (split; [reflexivity|]); [now left|now right]. }
  destruct (C39_solve k glob es (set_x x0 s) rs m p xN Hk Hasc Hg) as (s' & its & E & F & Rs & S & I & A & Hh & Nn & Xx).
  - exact Hf.
  - left. discriminate.
  - intros x [Hx|Hx]; [|now apply Hpos]. cbn in Hx. injection Hx as <-. apply Hpos. subst es. now left.
  - cbn [set_x l_num l_x]. rewrite (RC _ _ (l_x s)). exact ER.
  - rewrite (LC _ None). exact EL.
  - assert (solvek k glob false es (set_x x0 s) = solvek k glob false es s) as ES. { subst es. unfold solve. cbn [run step]. reflexivity. }
    rewrite ES in E. fold N in EM. rewrite EM in *.
    exists s', (fun i => if Nat.eqb i N then xN else match point_at i (rs ++ [(m, p)]) None with Some x => x | None => xN end).
    assert (forall i, (i <= N)%nat -> exists x, point_at i (rs ++ [(m, p)]) None = Some x) as PS.
    { intros i Hi. apply EI in Hi. rewrite ER in Hi. assert (Forall (fun r => snd r <> None) (rs ++ [(m, p)])) as FS.
      { rewrite <- ER. subst es. cbn [recorded]. apply Forall_forall. intros q Hq. destruct (recorded_points _ _ _ _ Hq) as [->|(y & -> & _)]; discriminate. }
      clear - Hi FS. revert FS Hi. generalize (rs ++ [(m, p)]) as l. intros l FS. assert (forall d, (exists x, d = Some x) -> exists x, point_at i l d = Some x) as G.
      { induction FS as [|[m0 p0] l Hp FS IH]; intros d Hd; cbn [point_at]; [assumption|]. apply IH. destruct (Nat.eqb (m_iter m0) i); [|assumption]. destruct p0; [eauto|]. now cbn in Hp. }
      induction FS as [|[m0 p0] l Hp FS IH]; intro Hi; [contradiction|]. cbn [point_at]. destruct (Nat.eqb_spec (m_iter m0) i) as [E|E].
      - destruct p0 as [y|]; [|now cbn in Hp]. clear - FS. assert (forall d, (exists x, d = Some x) -> exists x, point_at i l d = Some x) as G. { induction FS as [|[m0 p0] l Hp FS IH]; intros d Hd; cbn [point_at]; [assumption|]. apply IH. destruct (Nat.eqb (m_iter m0) i); [|assumption]. destruct p0; [eauto|]. now cbn in Hp. } apply G. eauto.
      - apply IH; [intros d Hd; specialize (G d Hd); cbn [point_at] in G|destruct Hi as [Hi|Hi]; [cbn in Hi; contradiction|assumption]]. now replace (Nat.eqb (m_iter m0) i) with false in G by (symmetry; now apply Nat.eqb_neq). }
    split; [exact E|]. split; [exact F|]. split; [exact Nn|]. split; [exists xN; rewrite Nat.eqb_refl; repeat split; assumption|]. split; [|split].
    + rewrite A. f_equal. assert (its = wanted k N) as ->.
      { apply sorted_lt_ext; [assumption|apply wanted_sorted|]. intro i. rewrite I. unfold wanted. rewrite in_app_iff, filter_In, in_seq, Z.eqb_eq. rewrite <- ER, EI. fold N. cbn [In]. split; [intros [->|[H1 H2]]; [auto|]; destruct (Nat.eq_dec i N); [auto|left; split; [lia|assumption]]|intros [[H1 H2]|[<-|[]]]; [right; split; [assumption|lia]|auto]]. }
      assert (forall i, In i (wanted k N) -> (i <= N)%nat) as WB. { intros i Hi. unfold wanted in Hi. apply in_app_iff in Hi. destruct Hi as [Hi|[<-|[]]]; [|lia]. apply filter_In in Hi. destruct Hi as [Hi _]. apply in_seq in Hi. lia. }
      rewrite !flat_map_concat_map. f_equal. apply map_ext_in. intros i Hi. destruct (Nat.eqb_spec i N) as [->|]; [reflexivity|]. destruct (PS i (WB i Hi)) as [x ->]. reflexivity.
    + intros i Hi. replace (Nat.eqb i N) with false by (symmetry; apply Nat.eqb_neq; lia). rewrite (RC _ None (l_x s)), ER. destruct (PS i) as [x Ex]; [lia|]. now rewrite Ex.
    + cbn [set_x l_hist] in Hh. rewrite Hh. now rewrite (RC _ None (l_x s)), ER.
Qed.
Print Assumptions C39_solver_run.

(** several solves of one problem, one after the other, each ending normally *)
Fixpoint solves (k : Z) (l : list ((list (nat * list row) -> list (nat * list row)) * list event)) (s : lst V) : lst V * result unit :=
  match l with [] => (s, Ok tt) | (glob, es) :: r => match solvek k glob false es s with (s', Ok _) => solves k r s' | (s', Raise e) => (s', Raise e) end end.
Definition proper_solve (ge : (list (nat * list row) -> list (nat * list row)) * list event) : Prop :=
  listing (fst ge) /\ (exists x r, snd ge = EObj x :: r) /\ (forall x, In x (points (snd ge)) -> 0 < mesh_scale x) /\ solver_counts (call_counts (snd ge)).
(** Any number of solves of at least one iteration each, then one more: the last one succeeds and its merged file holds exactly its own iterations,
    whatever happened before; no temporary files are left. *)
Theorem C39_history : forall k l ge, (0 < k)%Z -> (forall i j, (i < j < List.length nmesh)%nat -> vget i nmesh < vget j nmesh) ->
  Forall (fun g => proper_solve g /\ (1 <= last (call_counts (snd g)) 0)%nat) l -> proper_solve ge ->
  exists s' pt, solves k (l ++ [ge]) (@fresh V) = (s', Ok tt) /\ l_files s' = [] /\ l_num s' = Some (last (call_counts (snd ge)) 0%nat) /\
    l_all s' = Some (flat_map (fun i => RR (pt i) i) (wanted k (last (call_counts (snd ge)) 0%nat))).
Proof using.
  intros k l ge Hk Hasc HL HG. assert (forall s : lst V, l_files s = [] -> l_num s <> Some 0%nat -> exists s' pt, solves k (l ++ [ge]) s = (s', Ok tt) /\ l_files s' = [] /\ l_num s' = Some (last (call_counts (snd ge)) 0%nat) /\ l_all s' = Some (flat_map (fun i => RR (pt i) i) (wanted k (last (call_counts (snd ge)) 0%nat)))) as G; [|apply G; [reflexivity|discriminate]].
  assert (forall ge (s : lst V), proper_solve ge -> l_files s = [] -> l_num s <> Some 0%nat -> exists s' pt, solvek k (fst ge) false (snd ge) s = (s', Ok tt) /\ l_files s' = [] /\ l_num s' = Some (last (call_counts (snd ge)) 0%nat) /\ l_all s' = Some (flat_map (fun i => RR (pt i) i) (wanted k (last (call_counts (snd ge)) 0%nat)))) as One.
  { clear - Hk Hasc. intros [glob es] s (P1 & (x & r & P2) & P3 & P4) F N. cbn [fst snd] in *. destruct (C39_solver_run k glob x r s es P2 Hk Hasc P1 F N P3 P4) as (s' & pt & A1 & A2 & A3 & _ & A4 & _). exists s', pt. repeat split; assumption. }
  induction HL as [|[glob es] l [HP H1] HL IH]; intros s F N; cbn [app solves].
  - destruct ge as [glob es]. cbn [fst snd] in *. destruct (One (glob, es) s HG F N) as (s' & pt & E & A2 & A3 & A4). cbn [fst snd] in *. rewrite E. exists s', pt. repeat split; assumption.
  - destruct (One (glob, es) s HP F N) as (s' & pt & E & A2 & A3 & A4). cbn [fst snd] in *. rewrite E. apply IH; [assumption|]. rewrite A3. intro X. injection X as X. rewrite X in H1. lia.
Qed.
Print Assumptions C39_history.

(** metrics_history.csv of a first solve without repeated iterations: line i belongs to iteration i; it names the worst constraint of that iteration if
    the iteration was written, and nothing otherwise *)
Theorem C39_metrics : forall k glob es x0 es' N, es = EObj x0 :: es' -> (0 < k)%Z -> (0 < List.length nmesh)%nat -> (forall i j, (i < j < List.length nmesh)%nat -> vget i nmesh < vget j nmesh) ->
  listing glob -> (forall x, In x (points es) -> 0 < mesh_scale x) -> call_counts es = seq 0 (S N) ->
  exists s' ms pt, solvek k glob false es (@fresh V) = (s', Ok tt) /\ l_metrics s' = Some ms /\ List.length ms = S N /\ l_all s' = Some (flat_map (fun i => RR (pt i) i) (wanted k N)) /\
    forall i, (i <= N)%nat -> exists m, h_metric m = Some (nth i (flat_map (fun e => match e with ECall m => [m] | _ => [] end) es) {| m_alg := 0; m_iter := 0; m_rest := [] |}) /\
      nth_error ms i = Some m /\ h_viol m = if (Nat.eqb i N || Z.eqb (Z.of_nat i mod k) 0)%bool then Some (viol (RR (pt i) i)) else None.
Proof using.
  intros k glob es x0 es' N Hes Hk Hnm Hasc Hg Hpos HC.
  assert (solver_counts (call_counts es)) as SC.
  { rewrite HC. cbn [seq solver_counts]. split; [reflexivity|]. assert (forall n o, counts_from o (seq (S o) n)) as G; [|apply G]. induction n as [|n IH]; intro o; cbn [seq counts_from]; [trivial|]. split; [now right|apply IH]. }
  assert (last (call_counts es) 0%nat = N) as EL. { rewrite HC. replace (S N) with (N + 1)%nat by lia. rewrite seq_app. cbn. now rewrite last_last. }
  destruct (C39_solver_run k glob x0 es' fresh es Hes Hk Hasc Hg eq_refl ltac:(discriminate) Hpos SC) as (s' & pt & E & _ & _ & (xN & E1 & E2 & E3) & A & Hpt & Hh). rewrite EL in *. cbn [fresh l_num l_hist app] in *.
  assert (map fst (recorded None None es) = flat_map (fun e => match e with ECall m => [m] | _ => [] end) es) as EQ.
  { clear - HC. assert (forall es prev cur o n, call_counts es = seq o n -> (forall p, prev = Some p -> (p < o)%nat) -> map fst (recorded prev cur es) = flat_map (fun e => match e with ECall m => [m] | _ => [] end) es) as G; [|eapply G; [exact HC|discriminate]].
    clear. induction es as [|[x|m] es IH]; intros prev cur o n H Hp; cbn [recorded flat_map call_counts app] in *; [reflexivity|eapply IH; eassumption|]. fold (call_counts es) in *. destruct n as [|n]; [discriminate|]. cbn [seq] in H. injection H as H1 H2.
    replace (Nat.eqb (m_alg m) 0 && _)%bool with false; [|destruct prev as [p|]; [|now rewrite andb_false_r]; specialize (Hp p eq_refl); replace (Nat.eqb (m_iter m) p) with false by (symmetry; apply Nat.eqb_neq; lia); now rewrite andb_false_r].
    cbn [map fst]. f_equal. eapply IH; [eassumption|]. intros p E. injection E as <-. lia. }
  destruct (solver_recorded es None None SC ltac:(discriminate)) as (rs & m & p & ER & EM & EI).
  unfold solve in E. destruct (run nmesh scales nvs mesh_scale other (Some k) es fresh) as [s1 [[]|e]] eqn:Er; [|discriminate].
  destruct (run_ok nmesh scales nvs mesh_scale other k Hk es (@fresh V) []) as (s1' & Er' & I1 & X1 & N1 & H1 & _).
  { split; [constructor|]. intro i. cbn. now rewrite andb_false_r. }
  { intros _. right. subst es. cbn [recorded]. apply Forall_forall. intros q Hq. destruct (recorded_points _ _ _ _ Hq) as [->|(y & -> & _)]; discriminate. }
  rewrite Er in Er'. injection Er' as <-. cbn [fresh l_num l_hist l_x app] in *. rewrite ER in N1. rewrite rev_app_distr in N1. cbn [rev app] in N1. rewrite EM, EL in N1.
  assert (In N (iters (recorded None None es))) as HN by (apply EI; rewrite EL; lia).
  assert (0 < mesh_scale xN) as PxN. { apply Hpos. destruct (last_point_in es None) as [E0|(y & E0 & Hy)]; congruence. }
  destruct (final_ok nmesh scales nvs mesh_scale other viol k Hk Hasc glob s1 (recorded None None es) N xN Hg I1 ltac:(congruence) N1 HN PxN) as (s2 & js & F1 & _ & _ & A2 & _ & _ & _ & PJ & M).
  { intros i x Ex. apply point_at_in in Ex. destruct Ex as [|Ex]; [discriminate|]. apply in_map_iff in Ex. destruct Ex as (r & E0 & Hin). apply Hpos. destruct (recorded_points _ _ _ _ Hin) as [E'|(y & E' & Hy)]; congruence. }
  rewrite F1 in E. injection E as <-. set (bl := block nmesh scales nvs mesh_scale other (recorded None None es) N xN) in *.
  assert (forall i, (i <= N)%nat -> bl i = RR (pt i) i) as BL. { intros i Hi. unfold bl, block. destruct (Nat.eqb_spec i N) as [->|Hne]; [now rewrite E3|]. unfold rows_opt. rewrite <- (Hpt i) by lia. reflexivity. }
  assert (List.length (l_hist s1) = S N) as LH. { rewrite H1, EQ. assert (List.length (call_counts es) = S N) as L1 by (rewrite HC; apply seq_length). rewrite <- L1. unfold call_counts. clear. induction es as [|[x|m] es IH]; cbn [flat_map app List.length]; auto. }
  destruct (put_all viol bl js (hist0 (l_hist s1)) (S N)) as [K1 K2].
  { unfold hist0. rewrite map_fst_combine by (rewrite seq_length, map_length; reflexivity). now rewrite LH. }
  { apply (Permutation_NoDup (Permutation_sym PJ)). apply sorted_lt_nodup, its_sorted. }
  { intros i Hi. rewrite PJ in Hi. apply its_in in Hi. assert (i <= N)%nat as Hi' by (destruct Hi as [->|[_ Hi]]; [lia|]; apply EI in Hi; lia). split; [lia|]. rewrite BL by assumption. unfold result_rows. destruct (List.length nmesh) as [|n]; [lia|reflexivity]. }
  exists s2, (map snd (fold_left (put viol) (map bl js) (hist0 (l_hist s1)))), pt. split; [unfold solve; rewrite Er; exact F1|]. split; [exact M|]. split; [rewrite map_length; rewrite <- (map_length fst); rewrite K1; apply seq_length|]. split; [exact A|].
  intros i Hi. rewrite (seq_keys_nth _ _ (S N) 0 K1) by lia. cbn [plus]. rewrite K2 by lia. unfold hist0. pose proof (nget_combine _ (map (fun m0 : metric => {| h_metric := Some m0; h_viol := @None V |}) (l_hist s1)) 0 i) as NG. cbn [plus] in NG. rewrite map_length in NG. rewrite NG. rewrite nth_error_map. rewrite (nth_error_nth' _ {| m_alg := 0; m_iter := 0; m_rest := [] |}) by lia. cbn [option_map h_metric]. rewrite H1, EQ.
  assert (existsb (Nat.eqb i) js = (Nat.eqb i N || Z.eqb (Z.of_nat i mod k) 0)%bool) as EX.
  { apply eq_true_iff_eq. rewrite existsb_iters. rewrite PJ, its_in, due_k by assumption. rewrite orb_true_iff, Nat.eqb_eq. split; [tauto|]. intros [|H]; [auto|]. right. split; [assumption|]. apply EI. lia. }
  rewrite EX. destruct (_ || _)%bool.
  - eexists. split; [|split; [reflexivity|]]; cbn [h_metric h_viol]; [reflexivity|]. now rewrite BL.
  - eexists. split; [|split; [reflexivity|]]; reflexivity.
Qed.
Print Assumptions C39_metrics.
End P.

(** *** a concrete solve: three stages, one variable per stage; iterations 0 to 3, every second one is logged *)
Definition ex_pt (a : R) : list R := [a; a; a; 2].
Definition ex_events (a : R) : list event :=
  [EObj (ex_pt a); ECall {| m_alg := 0; m_iter := 0; m_rest := [] |}; EObj (ex_pt (a + 1)); ECall {| m_alg := 0; m_iter := 1; m_rest := [] |}; EObj (ex_pt (a + 2)); ECall {| m_alg := 0; m_iter := 2; m_rest := [] |};
   EObj (ex_pt (a + 3)); ECall {| m_alg := 0; m_iter := 3; m_rest := [] |}].
Definition ex_mesh : list R := [0; 1; 2].
Example C39_nonvacuous : (forall i j, (i < j < List.length ex_mesh)%nat -> vget i ex_mesh < vget j ex_mesh) /\ listing (fun l => l) /\ @proper_solve (vget 3) (fun l => l, ex_events 7) /\
  (1 <= last (call_counts (ex_events 7)) 0)%nat /\ call_counts (ex_events 7) = seq 0 4 /\ wanted 2 3 = [0; 2; 3]%nat.
Proof.
  split. { intros i j [H1 H2]. cbn in H2. destruct i as [|[|[|i]]], j as [|[|[|j]]]; try lia; cbn; lra. }
  split; [intro l; reflexivity|]. split.
  { split; [intro l; reflexivity|]. split; [do 2 eexists; reflexivity|]. split; [|cbn; intuition lia]. intros x Hx. cbn in Hx. destruct Hx as [<-|[<-|[<-|[<-|[]]]]]; cbn; lra. }
  split; [cbn; lia|]. split; reflexivity.
Qed.

(** *** findings *)
(** two solves that both stop at iteration 0: the callback of the second one is ignored as a repetition, so nothing is recorded and the final logging
    fails looking for the file of iteration 0 *)
Definition one_call (a : R) : list event := [EObj (ex_pt a); ECall {| m_alg := 0; m_iter := 0; m_rest := [] |}].
Theorem C39_second_solve_refuted : exists s1 s2, solve ex_mesh [1; 1; 1; 1] 1 (vget 3) (fun _ _ => []) (fun _ => tt) (Some 1%Z) (fun l => l) false (one_call 7) fresh = (s1, Ok tt) /\
  solve ex_mesh [1; 1; 1; 1] 1 (vget 3) (fun _ _ => []) (fun _ => tt) (Some 1%Z) (fun l => l) false (one_call 8) s1 = (s2, Raise FileNotFoundError) /\ solver_counts (call_counts (one_call 8)).
Proof.
  eexists. eexists. split; [unfold solve; cbn -[result_rows sort_rows]; reflexivity|]. split; [unfold solve; cbn -[result_rows sort_rows]; reflexivity|]. cbn. auto.
Qed.
Print Assumptions C39_second_solve_refuted.
(** the history of the metrics is never cleared: after a second solve metrics_history.csv starts with the records of the first one *)
Theorem C39_history_refuted : exists s1 s2 m1 r, solve ex_mesh [1; 1; 1; 1] 1 (vget 3) (fun _ _ => []) (fun _ => tt) (Some 0%Z) (fun l => l) false (ex_events 7) fresh = (s1, Ok tt) /\
  solve ex_mesh [1; 1; 1; 1] 1 (vget 3) (fun _ _ => []) (fun _ => tt) (Some 0%Z) (fun l => l) false (ex_events 9) s1 = (s2, Ok tt) /\ List.length (call_counts (ex_events 9)) = 4%nat /\ l_metrics s1 = Some m1 /\ l_metrics s2 = Some (m1 ++ r) /\ List.length (m1 ++ r) = 8%nat.
Proof.
  eexists. eexists. exists (map (fun i => {| h_metric := Some {| m_alg := 0; m_iter := i; m_rest := [] |}; h_viol := None |}) [0; 1; 2; 3]%nat), (map (fun i => {| h_metric := Some {| m_alg := 0; m_iter := i; m_rest := [] |}; h_viol := None |}) [0; 1; 2; 3]%nat).
  split; [unfold solve; cbn -[result_rows sort_rows]; reflexivity|]. split; [unfold solve; cbn -[result_rows sort_rows]; reflexivity|]. split; [reflexivity|]. split; [reflexivity|]. split; reflexivity.
Qed.
Print Assumptions C39_history_refuted.
(** an iteration that is recorded twice (the second time in restoration mode): the violation of iteration 1 is written to the line of the second record
    of iteration 0, and the line of iteration 1 stays "NotRecorded" *)
Definition restoration : list event :=
  [EObj (ex_pt 7); ECall {| m_alg := 0; m_iter := 0; m_rest := [] |}; ECall {| m_alg := 1; m_iter := 0; m_rest := [] |}; EObj (ex_pt 8); ECall {| m_alg := 0; m_iter := 1; m_rest := [] |}].
Theorem C39_violation_row_refuted : exists s1 a b c, solve [0] [1; 1; 1; 1] 1 (vget 3) (fun _ _ => []) (fun rows => List.length rows) (Some 1%Z) (fun l => l) false restoration fresh = (s1, Ok tt) /\ l_metrics s1 = Some [a; b; c] /\
  h_metric c = Some {| m_alg := 0; m_iter := 1; m_rest := [] |} /\ h_viol c = None /\ h_metric b = Some {| m_alg := 1; m_iter := 0; m_rest := [] |} /\ h_viol b = Some 1%nat.
Proof.
  unfold restoration. generalize (ex_pt 7) (ex_pt 8). intros x y. eexists.
  exists {| h_metric := Some {| m_alg := 0; m_iter := 0; m_rest := [] |}; h_viol := Some 1%nat |}, {| h_metric := Some {| m_alg := 1; m_iter := 0; m_rest := [] |}; h_viol := Some 1%nat |}, {| h_metric := Some {| m_alg := 0; m_iter := 1; m_rest := [] |}; h_viol := None |}.
  split; [unfold solve; cbn -[sort_rows vmul firstn skipn Rmult]; reflexivity|]. cbn [l_metrics map snd]. split; [reflexivity|]. repeat split; reflexivity.
Qed.
Print Assumptions C39_violation_row_refuted.
(** the mesh column multiplies the normalised mesh with the scaled value of the mesh scale: with a scale of 10 for that variable the last logged mesh
    point is 4 although the physical one is 40 *)
Theorem C39_mesh_column_refuted : exists r, nth_error (result_rows ex_mesh [1; 1; 1; 10] 1 (vget 3) (fun _ _ => []) (ex_pt 7) 0) 2 = Some r /\ r_mesh r = 4 /\ vget 2 ex_mesh * vget 3 (vmul (ex_pt 7) [1; 1; 1; 10]) = 40.
Proof. eexists. split; [reflexivity|]. cbn. split; lra. Qed.
Print Assumptions C39_mesh_column_refuted.
