(** C23: mesh construction. *)
From Verif Require Import Base RBase CollocModel CollocProofs CollocProofs2 CollocProps MeshModel MeshProofs.

(** *** C23 *)
(** A list of interval points is valid: right number, ends at 0 and 1 (up to the code's 1e-6), strictly increasing. *)
Definition valid_points (n : nat) (p : list R) : Prop :=
  List.length p = (n + 1)%nat /\ Rabs (nth 0 p 0) < 1 / 1000000 /\ Rabs (nth n p 0 - 1) < 1 / 1000000 /\
  (forall i j, (i < j)%nat -> (j <= n)%nat -> nth i p 0 < nth j p 0).

(** Exactly the valid lists are accepted; anything else raises ValueError and the mesh is unchanged. *)
Theorem C23_accepts : forall n t old p,
  (valid_points n p <-> snd (set_normalized_mesh n t old (Some p)) = Ok tt) /\
  (~ valid_points n p -> set_normalized_mesh n t old (Some p) = (old, Raise ValueError)).
Proof.
  intros n t old p.
  assert (valid_points n p <-> check_interval_points n p = Ok tt) as V.
  { rewrite check_ok. unfold valid_points. split.
    - intros (L & H0 & H1 & H). split; [assumption|]. split; [assumption|]. split.
      + rewrite last_nth_gen, L. replace (n + 1 - 1)%nat with n by lia. assumption.
      + intros i Hi. apply H; lia.
    - intros (L & H0 & H1 & H). split; [assumption|]. split; [assumption|]. split.
      + rewrite last_nth_gen, L in H1. replace (n + 1 - 1)%nat with n in H1 by lia. assumption.
      + intros i j Hij Hj. apply (step_mono_all (fun i => nth i p 0) (n + 1)); [|assumption|lia]. intros s Hs. apply H. lia. }
  rewrite V. unfold set_normalized_mesh, make_mesh. destruct (check_err n p) as [->| ->]; simpl.
  - split; [tauto|]. intro H; exfalso; apply H; reflexivity.
  - split; [split; discriminate|reflexivity].
Qed.
Print Assumptions C23_accepts.

(** The interval points in force after a successful call: the argument, or n+1 evenly spaced points from 0 to 1. *)
Definition points_used (n : nat) (arg : option (list R)) (p : list R) : Prop :=
  match arg with
  | Some q => p = q
  | None => List.length p = (n + 1)%nat /\ forall i, (i <= n)%nat -> nth i p 0 = INR i / INR n
  end.

Lemma mesh_points : forall n t old arg mesh, set_normalized_mesh n t old arg = (mesh, Ok tt) ->
  exists p, points_used n arg p /\ List.length p = (n + 1)%nat /\ (forall i, (i < n)%nat -> nth i p 0 < nth (S i) p 0) /\
            mesh = map (interval_mesh t p) (seq 0 n).
Proof.
  intros n t old arg mesh E. unfold set_normalized_mesh, make_mesh in E. destruct arg as [q|].
  - destruct (check_err n q) as [C|C]; rewrite C in E; simpl in E; [|discriminate]. inversion E; subst. exists q.
    apply check_ok in C. destruct C as (L & _ & _ & H). split; [reflexivity|]. split; [assumption|]. split; [|reflexivity].
    intros i Hi. apply H. lia.
  - simpl in E. inversion E; subst. exists (linspace01 n). split; [|split; [apply linspace_len|split; [intros; now apply linspace_mono|reflexivity]]].
    simpl. split; [apply linspace_len|]. intros. now apply linspace_nth.
Qed.

(** After a successful call, for every transcription the library makes:
    num_stages = n(m-1)+1 mesh points, strictly increasing; interval i covers stages i(m-1)..(i+1)(m-1), with
    ends at the given points; interval lengths are the differences of the points: positive, and they add up to
    last - first (which is 1 for the uniform mesh or exact end points). *)
Theorem C23_mesh : forall roots name ns t n old arg mesh, oracle_ok roots ns -> make_transcription roots name ns = Ok t -> (1 <= n)%nat ->
  set_normalized_mesh n t old arg = (mesh, Ok tt) ->
  exists p fm, points_used n arg p /\ List.length p = (n + 1)%nat /\ flat_mesh mesh = Ok fm /\
    List.length fm = (n * (t_stages t - 1) + 1)%nat /\
    (forall a b, (a < b)%nat -> (b < List.length fm)%nat -> nth a fm 0 < nth b fm 0) /\
    (forall i, (i <= n)%nat -> nth (i * (t_stages t - 1)) fm 0 = nth i p 0) /\
    List.length (interval_lengths mesh) = n /\
    (forall i, (i < n)%nat -> nth i (interval_lengths mesh) 0 = nth (S i) p 0 - nth i p 0 /\ 0 < nth i (interval_lengths mesh) 0) /\
    rsum (interval_lengths mesh) = nth n p 0 - nth 0 p 0 /\
    (arg = None -> rsum (interval_lengths mesh) = 1).
Proof.
  intros roots name ns t n old arg mesh HO HM Hn E. pose proof (tr_ok_make _ _ _ _ HO HM) as Ht.
  destruct (mesh_points n t old arg mesh E) as (p & Hu & Lp & Hp & Em).
  destruct (flat_ok n t p Hn Ht Lp Hp) as (fm & Ef & Lf & Hf). rewrite <- Em in Ef.
  exists p, fm. split; [assumption|]. split; [assumption|]. split; [assumption|]. split; [assumption|]. split; [|split; [|split; [|split; [|split]]]].
  - apply (flat_increasing n t p Hn Ht Lp Hp). now rewrite <- Em.
  - pose proof (tr_two t Ht) as H2. intros i Hi. destruct (Nat.eq_dec i n) as [->|Hne].
    + replace (n * (t_stages t - 1))%nat with ((n - 1) * (t_stages t - 1) + (t_stages t - 1))%nat by nia.
      rewrite Hf by lia. rewrite (tr_last t Ht). replace (n - 1 + 1)%nat with n by lia. lra.
    + replace (i * (t_stages t - 1))%nat with (i * (t_stages t - 1) + 0)%nat by lia.
      rewrite Hf by lia. rewrite (tr_first t Ht). lra.
  - rewrite Em. unfold interval_lengths. now rewrite !map_length, seq_length.
  - intros i Hi. rewrite Em, (lengths_ok n t p Hn Ht Lp). rewrite (nth_map_in _ _ _ _ _ _ 0%nat) by (now rewrite seq_length).
    rewrite seq_nth by assumption. simpl. split; [reflexivity|]. pose proof (Hp i Hi). lra.
  - rewrite Em. apply (lengths_sum n t p Hn Ht Lp).
  - intros ->. rewrite Em, (lengths_sum n t p Hn Ht Lp). simpl in Hu. destruct Hu as [_ Hu]. rewrite !Hu by lia.
    assert (INR n <> 0) by (apply not_0_INR; lia). simpl. field. assumption.
Qed.
Print Assumptions C23_mesh.

(** stages inside an interval sit at the transcription's own points: affine image of the collocation points *)
Theorem C23_collocation_points : forall roots name ns t n old arg mesh fm i j, oracle_ok roots ns -> make_transcription roots name ns = Ok t ->
  (1 <= n)%nat -> set_normalized_mesh n t old arg = (mesh, Ok tt) -> flat_mesh mesh = Ok fm -> t_points t <> [] -> (i < n)%nat -> (j < t_stages t)%nat ->
  nth (i * (t_stages t - 1) + j) fm 0 =
    nth (i * (t_stages t - 1)) fm 0 + nth j (t_points t) 0 * (nth (S i * (t_stages t - 1)) fm 0 - nth (i * (t_stages t - 1)) fm 0).
Proof.
  intros roots name ns t n old arg mesh fm i j HO HM Hn E Ef Hpt Hi Hj. pose proof (tr_ok_make _ _ _ _ HO HM) as Ht.
  pose proof (tr_two t Ht) as H2.
  destruct (mesh_points n t old arg mesh E) as (p & Hu & Lp & Hp & Em).
  destruct (flat_ok n t p Hn Ht Lp Hp) as (fm' & Ef' & Lf & Hf). rewrite <- Em in Ef'. assert (fm' = fm) by congruence. subst fm'.
  assert (nth (i * (t_stages t - 1)) fm 0 = nth i p 0) as ->.
  { replace (i * (t_stages t - 1))%nat with (i * (t_stages t - 1) + 0)%nat by lia. rewrite Hf by lia. rewrite (tr_first t Ht). lra. }
  replace (S i * (t_stages t - 1))%nat with (i * (t_stages t - 1) + (t_stages t - 1))%nat by lia.
  rewrite !Hf by lia. rewrite (tr_last t Ht), Nat.add_1_r.
  assert (rel t = t_points t) as -> by (unfold rel, is_lgr; destruct (t_points t); [congruence|reflexivity]). lra.
Qed.
Print Assumptions C23_collocation_points.

(** A whole history of calls: the mesh in force is that of the last accepted call. *)
Fixpoint run_meshes (n : nat) (t : transcription) (m : list (list R)) (calls : list (option (list R))) : list (list R) :=
  match calls with [] => m | c :: r => run_meshes n t (fst (set_normalized_mesh n t m c)) r end.
Theorem C23_history : forall n t calls m0 good rest,
  (forall q, good = Some q -> valid_points n q) -> Forall (fun c => exists q, c = Some q /\ ~ valid_points n q) rest ->
  run_meshes n t m0 (calls ++ good :: rest) = fst (set_normalized_mesh n t [] good).
Proof.
  intros n t calls; induction calls as [|c calls IH]; intros m0 good rest Hg Hr; [|simpl; now apply IH].
  simpl. assert (fst (set_normalized_mesh n t m0 good) = fst (set_normalized_mesh n t [] good)) as ->.
  { destruct good as [q|]; [|reflexivity]. pose proof (Hg q eq_refl) as V.
    pose proof (proj1 (proj1 (C23_accepts n t m0 q)) V) as E1.
    unfold set_normalized_mesh in *. destruct (make_mesh n t (Some q)); [reflexivity|discriminate]. }
  generalize (fst (set_normalized_mesh n t [] good)) as m. clear -Hr. induction Hr as [|c r (q & -> & Hq) _ IH]; intro m; [reflexivity|].
  simpl. rewrite (proj2 (C23_accepts n t m q) Hq). simpl. apply IH.
Qed.
Print Assumptions C23_history.

(** the physical mesh is the flat mesh times the scale *)
Theorem C23_scaled : forall mesh fm c s, flat_mesh mesh = Ok fm -> exists sm, mesh_from_scale mesh c = Ok sm /\
  List.length sm = List.length fm /\ nth s sm 0 = nth s fm 0 * c.
Proof.
  intros mesh fm c s E. unfold mesh_from_scale. rewrite E. simpl. eexists. split; [reflexivity|]. rewrite map_length. split; [reflexivity|].
  destruct (Nat.lt_ge_cases s (List.length fm)) as [H|H].
  - now rewrite (nth_map_in _ _ _ _ _ _ 0).
  - rewrite !nth_overflow by (rewrite ?map_length; assumption). lra.
Qed.
Print Assumptions C23_scaled.

(** the end points need not be exact: any value within 1e-6 is accepted, and the lengths then sum to last - first *)
Theorem C23_inexact_ends_refuted : exists n p, valid_points n p /\ nth n p 0 - nth 0 p 0 <> 1.
Proof.
  exists 1%nat, [1 / 10000000; 1]. split; [|simpl; lra]. split; [reflexivity|].
  split; [simpl; rewrite Rabs_right; lra|]. split; [simpl; replace (1 - 1) with 0 by lra; rewrite Rabs_R0; lra|].
  intros i j H1 H2. assert (i = 0%nat /\ j = 1%nat) as [-> ->] by lia. simpl. lra.
Qed.
Print Assumptions C23_inexact_ends_refuted.

(** no interval at all: every use of the mesh fails *)
Theorem C23_zero_intervals : forall t old arg mesh, set_normalized_mesh 0 t old arg = (mesh, Ok tt) -> flat_mesh mesh = Raise ValueError.
Proof.
  intros t old arg mesh E. unfold set_normalized_mesh, make_mesh in E. destruct arg as [q|]; simpl in E.
  - destruct (check_err 0 q) as [C|C]; rewrite C in E; simpl in E; inversion E; reflexivity.
  - inversion E. reflexivity.
Qed.
Print Assumptions C23_zero_intervals.

Example C23_nonvacuous : valid_points 2 [0; 1/4; 1] /\ ~ valid_points 2 [0; 1] /\ ~ valid_points 2 [0; 1/2; 1/2] /\
  oracle_ok (fun _ => [-1; 1/3]) None /\
  set_normalized_mesh 2 trapezoidal [] (Some [0; 1/4; 1]) = ([[0; 1/4]; [1/4; 1]], Ok tt).
Proof.
  assert (valid_points 2 [0; 1/4; 1]) as V.
  { split; [reflexivity|]. split; [simpl; rewrite Rabs_R0; lra|]. split; [simpl; replace (1 - 1) with 0 by lra; rewrite Rabs_R0; lra|].
    intros i j H1 H2. destruct i as [|[|i]], j as [|[|[|j]]]; simpl; lia || lra. }
  split; [exact V|]. split; [intros (L & _); discriminate|].
  split; [intros (_ & _ & H & _); simpl in H; rewrite Rabs_left in H; lra|].
  split; [exact (proj1 C22_nonvacuous)|].
  pose proof (proj1 (proj1 (C23_accepts 2 trapezoidal [] _)) V) as E. unfold set_normalized_mesh, make_mesh in *.
  destruct (check_err 2 [0; 1/4; 1]) as [C|C]; rewrite C in *; simpl in *; [reflexivity|discriminate].
Qed.
