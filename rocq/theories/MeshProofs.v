(** Proofs about the mesh and the shape of transcriptions. *)
From Verif Require Import Base RBase CollocModel CollocProofs CollocProofs2 CollocProps MeshModel.
From Coq Require Import Sorting.Sorted.

(** relative positions of the stages of one interval *)
Definition rel (t : transcription) : list R := if is_lgr t then t_points t else [0; 1].

Record tr_ok (t : transcription) : Prop := {
  tr_two : (2 <= t_stages t)%nat;
  tr_rel : List.length (rel t) = t_stages t;
  tr_sorted : StronglySorted Rlt (rel t);
  tr_first : nth 0 (rel t) 0 = 0;
  tr_last : nth (t_stages t - 1) (rel t) 0 = 1;
  tr_ncon : t_ncon t = (t_stages t - 1)%nat;
  tr_A : List.length (t_A t) = (t_stages t - 1)%nat /\ Forall (fun r => List.length r = t_stages t) (t_A t);
  tr_B : List.length (t_B t) = (t_stages t - 1)%nat /\ Forall (fun r => List.length r = t_stages t) (t_B t);
}.

Lemma diags_shape : forall vo nr nc, List.length (diags vo nr nc) = nr /\ Forall (fun r => List.length r = nc) (diags vo nr nc).
Proof.
  intros. unfold diags. rewrite map_length, seq_length. split; [reflexivity|]. apply Forall_map, Forall_forall.
  intros i _. now rewrite map_length, seq_length.
Qed.

Lemma last_nth_gen : forall A (l : list A) d, last l d = nth (List.length l - 1) l d.
Proof.
  intros A l d; induction l as [|a l IH]; [reflexivity|]. destruct l as [|b l]; [reflexivity|].
  change (last (a :: b :: l) d) with (last (b :: l) d). rewrite IH. simpl. rewrite Nat.sub_0_r. reflexivity.
Qed.

Lemma tr_ok_make : forall roots name ns t, oracle_ok roots ns -> make_transcription roots name ns = Ok t -> tr_ok t.
Proof.
  intros roots name ns t HO HM.
  assert (StronglySorted Rlt [0; 1]) as S01 by (repeat constructor; lra).
  destruct (proj2 (C22_make roots name ns) t HM) as [(_ & _ & ->)|[(_ & _ & ->)|[(_ & E)|(_ & E)]]].
  - constructor; unfold rel, is_lgr; simpl; auto using Forall_cons, Forall_nil. all: try (split; [reflexivity|]; apply Forall_cons; [reflexivity|apply Forall_nil]).
  - constructor; unfold rel, is_lgr; simpl; auto using Forall_cons, Forall_nil. all: try (split; [reflexivity|]; apply Forall_cons; [reflexivity|apply Forall_nil]).
  - set (m := match ns with None => 3%nat | Some n => n end) in *.
    destruct (le_lt_dec 2 m) as [Hm|Hm]; [|destruct (C21_stage_points roots m) as [B _]; destruct (B Hm); congruence].
    assert (roots_correct roots (lgr_coef (m - 1))) as HR by (unfold m; destruct ns; exact HO).
    destruct (lgr_ok roots m Hm HR) as (t' & cl & E' & Ep & Lc & Es & En & EA & EB & S & La & F). rewrite E in E'. inversion E'; subst t'.
    assert (rel t = 0 :: cl) as Er by (unfold rel, is_lgr; now rewrite Ep).
    constructor; rewrite ?Er, ?Es; auto.
    + simpl; lia.
    + rewrite last_nth_gen in La. replace (m - 1)%nat with (List.length (0%R :: cl) - 1)%nat by (simpl; lia). assumption.
    + rewrite EA. unfold build_lagrange_differential_matrix. rewrite ?map_length. split; [assumption|].
      apply Forall_map, Forall_forall. intros i _. rewrite !map_length. unfold make_lagrange_basis. rewrite map_length, seq_length. simpl; lia.
    + rewrite EB. apply diags_shape.
  - set (m := match ns with None => 3%nat | Some n => n end) in *.
    destruct (le_lt_dec 2 m) as [Hm|Hm]; [|destruct (C21_stage_points roots m) as [B _]; destruct (B Hm); congruence].
    assert (roots_correct roots (lgr_coef (m - 1))) as HR by (unfold m; destruct ns; exact HO).
    destruct (lgr_ok roots m Hm HR) as (t' & cl & E' & Ep & Lc & Es & En & EA & EB & S & La & F).
    unfold lgr_integral in E. rewrite E' in E. cbn [bind] in E. injection E as <-.
    rewrite Ep.
    constructor; unfold rel, is_lgr; cbn [t_points t_stages t_ncon t_A t_B]; auto.
    + simpl; lia.
    + rewrite last_nth_gen in La. replace (m - 1)%nat with (List.length (0%R :: cl) - 1)%nat by (simpl; lia). assumption.
    + rewrite map_length, seq_length. split; [reflexivity|]. apply Forall_map, Forall_forall. intros i _.
      simpl. rewrite map_length, seq_length. lia.
    + unfold build_lagrange_integration_matrix. rewrite ?map_length. simpl tl. split; [assumption|].
      apply Forall_map, Forall_forall. intros i _. rewrite !map_length. unfold make_lagrange_basis. rewrite map_length, seq_length. simpl; lia.
Qed.

Lemma rltb_iff : forall a b, rltb a b = true <-> a < b.
Proof. intros a b. unfold rltb. destruct (Rlt_dec a b); split; intro; auto; discriminate. Qed.
Lemma rleb_iff : forall a b, rleb a b = true <-> a <= b.
Proof. intros a b. unfold rleb. destruct (Rle_dec a b); split; intro; auto; discriminate. Qed.
Lemma rleb_false : forall a b, rleb a b = false <-> b < a.
Proof. intros a b. unfold rleb. destruct (Rle_dec a b); split; intro; auto; try discriminate; lra. Qed.

Lemma npdiff_pos : forall l, forallb (fun d => rltb 0 d) (npdiff l) = true <->
  forall i, (S i < List.length l)%nat -> nth i l 0 < nth (S i) l 0.
Proof.
  intros l; induction l as [|a l IH]; [split; [intros _ i Hi; simpl in Hi; lia|reflexivity]|].
  destruct l as [|b l]; [split; [intros _ i Hi; simpl in Hi; lia|reflexivity]|].
  cbn [npdiff forallb]. rewrite andb_true_iff, rltb_iff, IH. split.
  - intros [H1 H2] [|i] Hi; [simpl; lra|]. apply (H2 i). simpl in *; lia.
  - intro H. split; [specialize (H 0%nat); simpl in H; lra || (assert (a < b) by (apply H; lia); lra)|].
    intros i Hi. apply (H (S i)). simpl in *; lia.
Qed.

Lemma check_ok : forall n p, check_interval_points n p = Ok tt <->
  List.length p = (n + 1)%nat /\ Rabs (nth 0 p 0) < 1 / 1000000 /\ Rabs (last p 0 - 1) < 1 / 1000000 /\
  (forall i, (S i < List.length p)%nat -> nth i p 0 < nth (S i) p 0).
Proof.
  intros n p. unfold check_interval_points. rewrite <- npdiff_pos.
  destruct (Nat.eqb_spec (List.length p) (n + 1)); simpl; [|split; [discriminate|intros (H & _); contradiction]].
  destruct (rleb (1 / 1000000) (Rabs (nth 0 p 0))) eqn:E1; simpl.
  { apply rleb_iff in E1. split; [discriminate|intros (_ & H & _); lra]. }
  destruct (rleb (1 / 1000000) (Rabs (last p 0 - 1))) eqn:E2; simpl.
  { apply rleb_iff in E2. split; [discriminate|intros (_ & _ & H & _); lra]. }
  apply rleb_false in E1. apply rleb_false in E2.
  destruct (forallb _ (npdiff p)); simpl; split; auto; try discriminate. intros (_ & _ & _ & H); discriminate.
Qed.

Lemma check_err : forall n p, check_interval_points n p = Ok tt \/ check_interval_points n p = Raise ValueError.
Proof.
  intros n p. unfold check_interval_points. destruct (negb _); [auto|]. destruct (_ || _)%bool; [auto|]. destruct (negb _); auto.
Qed.

Lemma nth_concat_const : forall A k (l : list (list A)) i j d, Forall (fun r => List.length r = k) l -> (i < List.length l)%nat -> (j < k)%nat ->
  nth (i * k + j) (concat l) d = nth j (nth i l []) d.
Proof.
  intros A k l; induction l as [|r l IH]; intros i j d F Hi Hj; simpl in Hi; [lia|]. inversion F; subst. simpl.
  destruct i as [|i]; [simpl; now rewrite app_nth1|].
  rewrite app_nth2 by (simpl; lia). rewrite <- IH by (assumption || lia). f_equal. simpl. lia.
Qed.

Lemma length_concat_k : forall A k (l : list (list A)), Forall (fun r => List.length r = k) l -> List.length (concat l) = (List.length l * k)%nat.
Proof. intros A k l F; induction F as [|r l Hr _ IH]; simpl; [reflexivity|]. rewrite app_length, IH. lia. Qed.

Lemma nth_tl : forall A (l : list A) j d, nth j (tl l) d = nth (S j) l d.
Proof. intros A [|a l] j d; simpl; [now destruct j|reflexivity]. Qed.

Lemma step_mono_all : forall (f : nat -> R) N, (forall s, (S s < N)%nat -> f s < f (S s)) -> forall a b, (a < b)%nat -> (b < N)%nat -> f a < f b.
Proof.
  intros f N H a b Hab. induction Hab as [|b Hab IH]; intro Hb; [apply H; lia|].
  eapply Rlt_trans; [apply IH; lia|]. apply H; lia.
Qed.
Lemma tele : forall (f : nat -> R) k, rsum (map (fun i => f (S i) - f i) (seq 0 k)) = f k - f 0%nat.
Proof.
  intros f k; induction k as [|k IH]; [simpl; lra|]. rewrite seq_S, map_app, rsum_app, IH. simpl. lra.
Qed.

Section Mesh.
Variables (n : nat) (t : transcription) (p : list R).
Hypothesis Hn : (1 <= n)%nat.
Hypothesis Ht : tr_ok t.
Hypothesis Lp : List.length p = (n + 1)%nat.
Hypothesis Hp : forall i, (i < n)%nat -> nth i p 0 < nth (S i) p 0.
Let m := t_stages t.
Let mesh := map (interval_mesh t p) (seq 0 n).
Let P i := nth i p 0.

Lemma imesh_eq : forall i, interval_mesh t p i = map (fun q => P i + q * (P (i + 1)%nat - P i)) (rel t).
Proof.
  intro i. unfold interval_mesh, rel, P. destruct (is_lgr t); [reflexivity|]. simpl. f_equal; [lra|]. f_equal. lra.
Qed.
Lemma imesh_len : forall i, List.length (interval_mesh t p i) = m.
Proof. intro i. rewrite imesh_eq, map_length. apply (tr_rel t Ht). Qed.
Lemma imesh_nth : forall i j, (j < m)%nat -> nth j (interval_mesh t p i) 0 = P i + nth j (rel t) 0 * (P (i + 1)%nat - P i).
Proof. intros i j Hj. rewrite imesh_eq. rewrite (nth_map_in _ _ _ _ _ _ 0); [reflexivity|]. rewrite (tr_rel t Ht). exact Hj. Qed.

Lemma mesh_nth : forall i, (i < n)%nat -> nth i mesh [] = interval_mesh t p i.
Proof. intros i Hi. unfold mesh. rewrite (nth_map_in _ _ _ _ _ _ 0%nat) by (now rewrite seq_length). now rewrite seq_nth. Qed.
Lemma mesh_len : List.length mesh = n.
Proof. unfold mesh. now rewrite map_length, seq_length. Qed.

Lemma flat_ok : exists fm, flat_mesh mesh = Ok fm /\ List.length fm = (n * (m - 1) + 1)%nat /\
  forall i j, (i < n)%nat -> (j < m)%nat -> nth (i * (m - 1) + j) fm 0 = P i + nth j (rel t) 0 * (P (i + 1)%nat - P i).
Proof.
  pose proof (tr_two t Ht) as H2. fold m in H2.
  assert (exists k, n = S k) as (k & Ek) by (exists (n - 1)%nat; lia).
  assert (mesh = interval_mesh t p 0 :: map (interval_mesh t p) (seq 1 k)) as Em by (unfold mesh; rewrite Ek; reflexivity).
  rewrite Em. cbn [flat_mesh]. eexists. split; [reflexivity|].
  assert (Forall (fun r => List.length r = (m - 1)%nat) (map (@tl R) (map (interval_mesh t p) (seq 1 k)))) as F.
  { apply Forall_map, Forall_map, Forall_forall. intros i _. pose proof (imesh_len i) as L. destruct (interval_mesh t p i); simpl in *; lia. }
  split.
  - rewrite app_length, imesh_len, (length_concat_k _ (m - 1)) by assumption. rewrite !map_length, seq_length. subst n. nia.
  - assert (forall i j, (i < n)%nat -> (1 <= j < m)%nat -> nth (i * (m - 1) + j) (interval_mesh t p 0 ++ concat (map (@tl R) (map (interval_mesh t p) (seq 1 k)))) 0 =
        P i + nth j (rel t) 0 * (P (i + 1)%nat - P i)) as Hpos.
    { intros i j Hi Hj. destruct i as [|i].
      - change (0 * (m - 1) + j)%nat with (0 + j)%nat; rewrite Nat.add_0_l. rewrite app_nth1 by (rewrite imesh_len; lia). apply imesh_nth; lia.
      - rewrite app_nth2 by (rewrite imesh_len; nia). rewrite imesh_len.
        replace (S i * (m - 1) + j - m)%nat with (i * (m - 1) + (j - 1))%nat by nia.
        rewrite nth_concat_const; [|assumption|rewrite !map_length, seq_length; lia|lia].
        rewrite map_map. rewrite (nth_map_in _ _ _ _ _ _ 0%nat) by (rewrite seq_length; lia). rewrite seq_nth by lia.
        rewrite nth_tl. replace (S (j - 1)) with j by lia. change (1 + i)%nat with (S i). apply imesh_nth; lia. }
    intros i j Hi Hj. destruct (Nat.eq_dec j 0) as [->|Hj0]; [|apply Hpos; lia].
    destruct i as [|i].
    + change (0 * (m - 1) + 0)%nat with (0 + 0)%nat; rewrite Nat.add_0_l. rewrite app_nth1 by (rewrite imesh_len; lia). apply imesh_nth; lia.
    + replace (S i * (m - 1) + 0)%nat with (i * (m - 1) + (m - 1))%nat by nia. rewrite Hpos by lia.
      rewrite (tr_first t Ht). unfold m. rewrite (tr_last t Ht). rewrite Nat.add_1_r. lra.
Qed.

Lemma rel_mono : forall a b, (a < b)%nat -> (b < m)%nat -> nth a (rel t) 0 < nth b (rel t) 0.
Proof.
  intros a b Hab Hb. assert (b < List.length (rel t))%nat as Hb' by (rewrite (tr_rel t Ht); exact Hb). clear Hb.
  pose proof (tr_sorted t Ht) as S. revert a b Hab Hb'. induction S as [|x l S IH F]; intros a b Hab Hb; simpl in Hb; [lia|].
  destruct b as [|b]; [lia|]. destruct a as [|a]; simpl.
  - rewrite Forall_forall in F. apply F. apply nth_In. lia.
  - apply IH; lia.
Qed.


Lemma flat_increasing : forall fm, flat_mesh mesh = Ok fm -> forall a b, (a < b)%nat -> (b < List.length fm)%nat -> nth a fm 0 < nth b fm 0.
Proof.
  intros fm E. destruct flat_ok as (fm' & E' & L & H). assert (fm' = fm) by congruence. subst fm'.
  apply step_mono_all. intros s Hs. rewrite L in Hs.
  pose proof (tr_two t Ht) as H2. fold m in H2.
  assert (s = (s / (m - 1)) * (m - 1) + s mod (m - 1))%nat as Es by (rewrite Nat.mul_comm; apply Nat.div_mod; lia).
  assert (s mod (m - 1) < m - 1)%nat as Hj by (apply Nat.mod_upper_bound; lia).
  assert (s / (m - 1) < n)%nat as Hi by (apply Nat.div_lt_upper_bound; nia).
  set (i := (s / (m - 1))%nat) in *. set (j := (s mod (m - 1))%nat) in *. rewrite Es.
  replace (S (i * (m - 1) + j)) with (i * (m - 1) + S j)%nat by lia.
  rewrite !H by lia. apply Rplus_lt_compat_l. apply Rmult_lt_compat_r.
  - unfold P. rewrite Nat.add_1_r. pose proof (Hp i Hi). lra.
  - apply rel_mono; lia.
Qed.

Lemma lengths_ok : interval_lengths mesh = map (fun i => P (S i) - P i) (seq 0 n).
Proof.
  pose proof (tr_two t Ht) as H2. fold m in H2.
  unfold interval_lengths, mesh. rewrite map_map. apply map_ext. intro i. rewrite last_nth_gen, imesh_len.
  assert (hd 0 (interval_mesh t p i) = nth 0 (interval_mesh t p i) 0) as -> by (destruct (interval_mesh t p i); reflexivity).
  rewrite !imesh_nth by lia. unfold m. rewrite (tr_last t Ht), (tr_first t Ht), Nat.add_1_r. lra.
Qed.

Lemma lengths_sum : rsum (interval_lengths mesh) = P n - P 0%nat.
Proof. rewrite lengths_ok. apply tele. Qed.
End Mesh.

Lemma linspace_len : forall n, List.length (linspace01 n) = (n + 1)%nat.
Proof. intro n. unfold linspace01. now rewrite map_length, seq_length. Qed.
Lemma linspace_nth : forall n i, (i <= n)%nat -> nth i (linspace01 n) 0 = INR i / INR n.
Proof.
  intros n i Hi. unfold linspace01. rewrite (nth_map_in _ _ _ _ _ _ 0%nat) by (rewrite seq_length; lia). rewrite seq_nth by lia. reflexivity.
Qed.
Lemma linspace_mono : forall n i, (i < n)%nat -> nth i (linspace01 n) 0 < nth (S i) (linspace01 n) 0.
Proof.
  intros n i Hi. rewrite !linspace_nth by lia. assert (0 < INR n) by (apply lt_0_INR; lia).
  unfold Rdiv. apply Rmult_lt_compat_r; [now apply Rinv_0_lt_compat|]. rewrite S_INR. lra.
Qed.
