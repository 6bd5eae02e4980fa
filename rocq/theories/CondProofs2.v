(** Proofs about the condensed problem: the jacobian. *)
From Verif Require Import Base RBase TreeModel UtilsModel UtilsProofs UtilsProofs2 CollocModel CollocProofs CollocProofs2 CollocProps
  NlpModel NlpProofs NlpProofs2 MeshModel MeshProofs MeshProps OcpModel OcpProofs OcpProofs2 OcpProofs3 OcpSpec OcpProps BoundModel BoundSpec BoundProofs ObjModel ObjProofs CondModel CondSpec CondProofs.

Lemma map2_app : forall A B C (f : A -> B -> C) a b a' b', List.length a = List.length b -> map2 f (a ++ a') (b ++ b') = map2 f a b ++ map2 f a' b'.
Proof. intros A B C f a; induction a as [|x a IH]; intros [|y b] a' b' H; simpl in *; try discriminate; [reflexivity|]. now rewrite IH by lia. Qed.
Lemma map2_blocks : forall A B C (f : A -> B -> C) (g : nat -> nat -> A) (h : nat -> nat -> B) k l,
  map2 f (concat (map (fun i => map (g i) (seq 0 k)) l)) (concat (map (fun i => map (h i) (seq 0 k)) l)) = concat (map (fun i => map (fun c => f (g i c) (h i c)) (seq 0 k)) l).
Proof.
  intros A B C f g h k l; induction l as [|i l IH]; [reflexivity|]. cbn [map concat]. rewrite map2_app by (now rewrite !map_length). rewrite IH. f_equal. apply map2_comp.
Qed.
Lemma rsum_blocks : forall (f : nat -> nat -> R) k l, rsum (concat (map (fun i => map (f i) (seq 0 k)) l)) = rsum (map (fun i => rsum (map (f i) (seq 0 k))) l).
Proof. intros. now rewrite rsum_concat, map_map. Qed.

(** ** Structure and values *)
Lemma tri_nonzeros : forall nr nc (M S : nat -> nat -> R) r q, (r < nr)%nat -> (q < nc)%nat ->
  tri (fst (nonzeros nr nc S)) (snd (nonzeros nr nc S)) (map2 M (fst (nonzeros nr nc S)) (snd (nonzeros nr nc S))) r q = if Req_EM_T (S r q) 0 then 0 else M r q.
Proof.
  intros nr nc M S r q Hr Hq. unfold nonzeros. cbn [fst snd]. set (P := fun rc : nat * nat => negb (if Req_EM_T (S (fst rc) (snd rc)) 0 then true else false)).
  set (L := flat_map (fun q0 => map (fun r0 => (r0, q0)) (seq 0 nr)) (seq 0 nc)).
  assert (forall l, NoDup l -> tri (map fst (filter P l)) (map snd (filter P l)) (map2 M (map fst (filter P l)) (map snd (filter P l))) r q =
     if existsb (fun rc => (Nat.eqb (fst rc) r && Nat.eqb (snd rc) q)%bool) l then (if Req_EM_T (S r q) 0 then 0 else M r q) else 0) as H.
  { intros l ND; induction ND as [|[a b] l Hin ND IH]; [reflexivity|]. cbn [filter existsb fst snd]. destruct (Nat.eqb_spec a r) as [->|Na]; [destruct (Nat.eqb_spec b q) as [->|Nb]|]; cbn [andb orb].
    - assert (existsb (fun rc => (Nat.eqb (fst rc) r && Nat.eqb (snd rc) q)%bool) l = false) as NE.
      { apply not_true_iff_false. intro C. apply existsb_exists in C. destruct C as ([a b] & Hi & Hab). cbn [fst snd] in Hab. apply andb_true_iff in Hab. destruct Hab as [H1 H2]. apply Nat.eqb_eq in H1, H2. subst. contradiction. }
      rewrite NE in IH. assert (P (r, q) = negb (if Req_EM_T (S r q) 0 then true else false)) as EP by reflexivity. rewrite EP. destruct (Req_EM_T (S r q) 0) as [Z|Z]; cbn [negb].
      + exact IH.
      + cbn [map map2 tri fst snd]. rewrite IH, !Nat.eqb_refl. cbn [andb]. ring.
    - destruct (P (r, b)); [|exact IH]. cbn [map map2 tri fst snd]. rewrite IH. apply Nat.eqb_neq in Nb. rewrite Nb, andb_false_r. ring.
    - destruct (P (a, b)); [|exact IH]. cbn [map map2 tri fst snd]. rewrite IH. apply Nat.eqb_neq in Na. rewrite Na. cbn [andb]. ring. }
  rewrite H.
  - assert (existsb (fun rc => (Nat.eqb (fst rc) r && Nat.eqb (snd rc) q)%bool) L = true) as ->; [|reflexivity].
    apply existsb_exists. exists (r, q). cbn [fst snd]. rewrite !Nat.eqb_refl. split; [|reflexivity]. unfold L. apply in_flat_map. exists q. split; [apply in_seq; lia|]. apply in_map_iff. exists r. split; [reflexivity|apply in_seq; lia].
  - unfold L. clear. generalize 0%nat at 2 as t. induction nc as [|nc IH]; intro t; [constructor|]. cbn [seq flat_map]. apply NoDup_app_intro; [|apply IH|].
    + apply FinFun.Injective_map_NoDup; [intros a b E; now injection E|apply seq_NoDup].
    + intros [a b] H1 H2. apply in_map_iff in H1. destruct H1 as (r & E & _). injection E as _ <-. apply in_flat_map in H2. destruct H2 as (q & Hq & H2). apply in_map_iff in H2. destruct H2 as (r' & E & _). injection E as _ <-. apply in_seq in Hq. lia.
Qed.
Lemma nonzeros_range : forall nr nc S r q, In (r, q) (combine (fst (nonzeros nr nc S)) (snd (nonzeros nr nc S))) -> (r < nr)%nat /\ (q < nc)%nat.
Proof.
  intros nr nc S r q H. unfold nonzeros in H. cbn [fst snd] in H. set (l := filter _ _) in H. assert (forall (l : list (nat * nat)), combine (map fst l) (map snd l) = l) as C by (intro z; induction z as [|[a b] z IH]; [reflexivity|]; cbn [map fst snd combine]; now rewrite IH).
  rewrite C in H. unfold l in H. apply filter_In in H. destruct H as [H _]. apply in_flat_map in H. destruct H as (b & Hb & H). apply in_map_iff in H. destruct H as (a & E & Ha). injection E as -> ->. apply in_seq in Hb, Ha. lia.
Qed.

Lemma seq_blocks : forall a k, seq 0 (a * k) = concat (map (fun i => map (fun r => i * k + r)%nat (seq 0 k)) (seq 0 a)).
Proof.
  intros a k. induction a as [|a IH]; [reflexivity|]. rewrite seq_S, map_app, concat_app. cbn [map concat]. rewrite app_nil_r, <- IH. replace (S a * k)%nat with (a * k + k)%nat by lia. rewrite seq_app. f_equal.
  cbn [Nat.add]. clear. generalize (a * k)%nat as s. intro s. rewrite <- (Nat.add_0_r s) at 1. generalize 0%nat as t. induction k as [|k IH]; intro t; [reflexivity|]. cbn [seq map]. f_equal. rewrite <- IH. f_equal; lia.
Qed.
Lemma filter_concat' : forall X (p : X -> bool) L, filter p (concat L) = concat (map (filter p) L).
Proof. intros X p L; induction L as [|a L IH]; [reflexivity|]. cbn [concat map]. now rewrite filter_app, IH. Qed.
Lemma comp3_nth : forall X a k b (f : nat -> nat -> nat -> X) i l c z, (i < a)%nat -> (l < k)%nat -> (c < b)%nat -> nth (rowno k b i l c) (comp3 a k b f) z = f i l c.
Proof.
  intros X a k b f i l c z Hi Hl Hc. unfold comp3, rowno. assert (l * b + c < k * b)%nat by (assert ((l + 1) * b <= k * b)%nat by (apply Nat.mul_le_mono_r; lia); lia).
  rewrite (nth_concat_const _ (k * b)).
  - rewrite (nth_map_in _ _ _ _ _ _ 0%nat) by (now rewrite seq_length). rewrite seq_nth by assumption. cbn [Nat.add].
    rewrite (nth_concat_const _ b).
    + rewrite (nth_map_in _ _ _ _ _ _ 0%nat) by (now rewrite seq_length). rewrite seq_nth by assumption. cbn [Nat.add]. now rewrite nth_comp.
    + apply Forall_map, Forall_forall. intros. now rewrite map_length, seq_length.
    + now rewrite map_length, seq_length.
    + assumption.
  - apply Forall_map, Forall_forall. intros. apply len_cmap. intros. now rewrite map_length, seq_length.
  - now rewrite map_length, seq_length.
  - assumption.
Qed.

Section Cond.
Variable o : ocp.
Hypothesis K : ocp_ok o.
Hypothesis Hn : (1 <= num_intervals o)%nat.
Hypothesis Hd : (1 <= num_states o)%nat.
Variables (alg : bcon) (nimp : nat).
Hypothesis EA : explicit_algebra o alg nimp.
Hypothesis XJ : is_jacobian (num_dec (oc_op o)) (c_ncon alg) (con_constraints alg) (alg_jac alg).
Let op := oc_op o.
Let m := nspi op.
Let n := num_intervals o.
Let d := num_states o.
Let nvs := num_var_stage op.
Let ns := num_stages op.
Let A := t_A (oc_tr o).
Let B := t_B (oc_tr o).
Let len i := vget i (interval_lengths (oc_mesh o)).
Notation ia := (ia o). Notation ib := (ib o). Notation isc := (isc o). Notation scl := (scl o).
Notation dt := (dt o). Notation Fv := (Fv o alg nimp). Notation isdot := (isdot o). Notation dots := (dots o). Notation dotfree := (dotfree o). Notation G := (G o alg nimp). Notation solved := (solved o alg nimp).
Notation J := (alg_jac alg).
Let con x := con_constraints alg x.
Let nd := num_dec op.

Lemma dotfree_pderiv : forall P x q, dotfree P -> List.length x = nd -> isdot q -> pderiv P x q 0.
Proof using K Hn Hd EA XJ. intros P x q HP L Hq. unfold pderiv. eapply dlim_ext; [|apply (dlim_const (P x))]. intro t. symmetry. now apply HP. Qed.

Lemma row_lt : forall k c, (k < ns)%nat -> (c < nimp)%nat -> (k * nimp + c < c_ncon alg)%nat.
Proof using K Hn Hd EA. intros k c Hk Hc. rewrite (ea_ncon _ _ _ EA). fold op ns. assert ((k + 1) * nimp <= ns * nimp)%nat by (apply Nat.mul_le_mono_r; lia). lia. Qed.
Definition delta (a b : nat) : R := if Nat.eqb a b then 1 else 0.
Definition dFv (k c q : nat) (x : list R) : R := J x (k * nimp + c)%nat q + delta (dt k c) q.
Lemma pderiv_Fv : forall k c x q, (k < ns)%nat -> (c < d)%nat -> List.length x = nd -> (q < nd)%nat -> pderiv (Fv k c) x q (dFv k c q x).
Proof using K Hn Hd EA XJ.
  intros k c x q Hk Hc L Hq. unfold CondProofs.Fv, dFv. apply (pderiv_plus (fun y => vget (k * nimp + c) (con_constraints alg y)) (vget (dt k c))).
  - apply XJ; [exact L|apply row_lt; [exact Hk|pose proof (ea_d _ _ _ EA) as Ed; fold d in Ed; lia]|exact Hq].
  - apply pderiv_coord. lia.
Qed.
Lemma dFv_dot : forall k c x q, (k < ns)%nat -> (c < d)%nat -> List.length x = nd -> isdot q -> dFv k c q x = 0.
Proof using K Hn Hd EA XJ.
  intros k c x q Hk Hc L Hq. eapply pderiv_unique; [apply pderiv_Fv; try eassumption; now apply (isdot_lt o K Hn Hd)|]. apply dotfree_pderiv; [|assumption|assumption]. now apply (Fv_free o K Hn Hd).
Qed.

Definition dG (i l c q : nat) (x : list R) : R :=
  rsum (map (fun j => mget l j (t_A (oc_tr o)) * delta (ia i j c) q) (seq 0 (nspi (oc_op o)))) -
  rsum (map (fun j => mget l j (t_B (oc_tr o)) * (dFv (i * (nspi (oc_op o) - 1) + j) c q x * (vget i (interval_lengths (oc_mesh o)) * scl x) +
       Fv (i * (nspi (oc_op o) - 1) + j) c x * (vget i (interval_lengths (oc_mesh o)) * dscl o q))) (seq 0 (nspi (oc_op o)))).
Lemma pderiv_G : forall i l c x q, (i < n)%nat -> (c < d)%nat -> List.length x = nd -> (q < nd)%nat -> pderiv (G i l c) x q (dG i l c q x).
Proof using K Hn Hd EA XJ.
  intros i l c x q Hi Hc L Hq. unfold CondProofs.G, dG. fold op m A B. apply pderiv_sub.
  - apply (pderiv_rsum (fun j y => mget l j A * vget (ia i j c) y) (fun j => mget l j A * delta (ia i j c) q)). intros j _. apply pderiv_scal. apply pderiv_coord. lia.
  - apply (pderiv_rsum (fun j y => mget l j B * (Fv (i * (m - 1) + j) c y * (len i * scl y)))
       (fun j => mget l j B * (dFv (i * (m - 1) + j) c q x * (len i * scl x) + Fv (i * (m - 1) + j) c x * (len i * dscl o q)))).
    intros j Hj. apply in_seq in Hj. apply pderiv_scal. apply (pderiv_mult (Fv (i * (m - 1) + j) c) (fun y => len i * scl y)).
    + apply pderiv_Fv; [apply (stage_lt o K Hn Hd); [exact Hi|fold op m; lia]|exact Hc|exact L|exact Hq].
    + apply pderiv_scal. now apply (pderiv_scl o K Hn Hd).
Qed.
Lemma dG_dot : forall i l c x q, (i < n)%nat -> (c < d)%nat -> List.length x = nd -> isdot q -> dG i l c q x = 0.
Proof using K Hn Hd EA XJ.
  intros i l c x q Hi Hc L Hq. eapply pderiv_unique; [apply pderiv_G; try eassumption; now apply (isdot_lt o K Hn Hd)|]. apply dotfree_pderiv; [|assumption|assumption]. now apply (G_free o K Hn Hd).
Qed.

(** ** Kept rows *)
Lemma xdot_eqs_eq : xdot_eqs o nimp = concat (map (fun k => map (fun c => c + k * nimp)%nat (seq 0 d)) (seq 0 ns)).
Proof using K Hn Hd EA. reflexivity. Qed.
Lemma xdot_In : forall k r, (k < ns)%nat -> (r < nimp)%nat -> existsb (Nat.eqb (k * nimp + r)) (xdot_eqs o nimp) = Nat.ltb r d.
Proof using K Hn Hd EA.
  intros k r Hk Hr. pose proof (ea_d _ _ _ EA) as Ed. fold d in Ed. destruct (Nat.ltb_spec r d) as [H|H].
  - apply existsb_exists. exists (k * nimp + r)%nat. split; [|apply Nat.eqb_refl]. rewrite xdot_eqs_eq. apply in_concat. exists (map (fun c => c + k * nimp)%nat (seq 0 d)). split; [apply in_map_iff; exists k; split; [reflexivity|apply in_seq; lia]|].
    apply in_map_iff. exists r. split; [lia|apply in_seq; lia].
  - apply not_true_iff_false. intro E. apply existsb_exists in E. destruct E as (e & He & Ee). apply Nat.eqb_eq in Ee. subst e. rewrite xdot_eqs_eq in He. apply in_concat in He. destruct He as (b & Hb & He).
    apply in_map_iff in Hb. destruct Hb as (k' & <- & Hk'). apply in_map_iff in He. destruct He as (c & Ec & Hc). apply in_seq in Hc. destruct (mixed_radix nimp c r k' k) as [X Y]; lia.
Qed.
Lemma kept_eq : kept_rows o alg nimp = concat (map (fun k => map (fun r => k * nimp + (d + r))%nat (seq 0 (nimp - d))) (seq 0 ns)).
Proof using K Hn Hd EA.
  pose proof (ea_d _ _ _ EA) as Ed. fold d in Ed. unfold kept_rows. rewrite (ea_ncon _ _ _ EA). fold op ns. rewrite seq_blocks, filter_concat', map_map. f_equal. apply map_seq_in. intros k Hk.
  assert (forall rs, (forall r, In r rs -> (r < nimp)%nat) -> filter (fun r => negb (existsb (Nat.eqb r) (xdot_eqs o nimp))) (map (fun r => k * nimp + r)%nat rs) = map (fun r => k * nimp + r)%nat (filter (fun r => negb (Nat.ltb r d)) rs)) as F.
  { intros rs; induction rs as [|r rs IH]; intro H; [reflexivity|]. cbn [map filter]. rewrite (xdot_In k r Hk) by (apply H; simpl; auto). rewrite IH by (intros; apply H; simpl; auto). destruct (negb (Nat.ltb r d)); reflexivity. }
  rewrite F by (intros r Hr; apply in_seq in Hr; lia). replace (seq 0 nimp) with (seq 0 (d + (nimp - d))) by (f_equal; lia). rewrite seq_app, filter_app.
  assert (forall l, (forall r, In r l -> (r < d)%nat) -> filter (fun r => negb (Nat.ltb r d)) l = []) as F1.
  { intros l; induction l as [|r l IH]; intro H; [reflexivity|]. cbn [filter]. assert (r < d)%nat as Hr by (apply H; simpl; auto). apply Nat.ltb_lt in Hr. rewrite Hr. cbn [negb]. apply IH. intros; apply H; simpl; auto. }
  assert (forall l, (forall r, In r l -> (d <= r)%nat) -> filter (fun r => negb (Nat.ltb r d)) l = l) as F2.
  { intros l; induction l as [|r l IH]; intro H; [reflexivity|]. cbn [filter]. assert (d <= r)%nat as Hr by (apply H; simpl; auto). apply Nat.ltb_ge in Hr. rewrite Hr. cbn [negb]. f_equal. apply IH. intros; apply H; simpl; auto. }
  rewrite F1 by (intros r Hr; apply in_seq in Hr; lia). rewrite F2 by (intros r Hr; apply in_seq in Hr; lia). cbn [app].
  clear. cbn [Nat.add]. rewrite <- (Nat.add_0_r d) at 1. generalize 0%nat as t. induction (nimp - d)%nat as [|z IH]; intro t; [reflexivity|]. cbn [seq map]. f_equal. rewrite <- IH. f_equal. f_equal. lia.
Qed.
Lemma kept_len : List.length (kept_rows o alg nimp) = (ns * (nimp - d))%nat.
Proof using K Hn Hd EA. rewrite kept_eq. apply len_cmap. intros. now rewrite map_length, seq_length. Qed.
Lemma restl_kept : forall x, restl o alg nimp x = map (fun r => vget r (con x)) (kept_rows o alg nimp).
Proof using K Hn Hd EA.
  intro x. rewrite kept_eq, concat_map, map_map. unfold restl. f_equal. apply map_seq_in. intros k Hk. rewrite map_map. reflexivity.
Qed.
Lemma kept_lt : forall r, In r (kept_rows o alg nimp) -> (r < c_ncon alg)%nat.
Proof using K Hn Hd EA. intros r H. unfold kept_rows in H. apply filter_In in H. destruct H as [H _]. apply in_seq in H. lia. Qed.
Lemma kept_dot : forall r x q, In r (kept_rows o alg nimp) -> List.length x = nd -> isdot q -> J x r q = 0.
Proof using K Hn Hd EA XJ.
  intros r x q Hr L Hq. eapply pderiv_unique; [apply XJ; [exact L|now apply kept_lt|now apply (isdot_lt o K Hn Hd)]|]. rewrite kept_eq in Hr. apply in_concat in Hr. destruct Hr as (b & Hb & Hr).
  apply in_map_iff in Hb. destruct Hb as (k & <- & Hk). apply in_map_iff in Hr. destruct Hr as (r' & <- & Hr'). apply in_seq in Hk, Hr'.
  apply (dotfree_pderiv (fun y => vget (k * nimp + (d + r')) (con_constraints alg y))); [|assumption|assumption]. apply (rest_free o K Hn Hd alg nimp EA k (d + r')); fold d; lia.
Qed.

Lemma ncc_eq : num_continuity_cons o = (n * ((m - 1) * d))%nat.
Proof using K Hn Hd EA. unfold num_continuity_cons. rewrite (tr_ncon _ (oo_tr o K)), <- (oo_m o K). fold op m n d. lia. Qed.
Lemma cond_list_len : forall x, List.length (cond_list o alg nimp x) = num_condensed o nimp.
Proof using K Hn Hd EA XJ.
  intro x. unfold cond_list, num_condensed. rewrite app_length, comp3_len, restl_kept, map_length, kept_len. fold op m n d ns. nia.
Qed.
Lemma cond_nth1 : forall x i l c, (i < n)%nat -> (l < m - 1)%nat -> (c < d)%nat -> vget (rowno (m - 1) d i l c) (cond_list o alg nimp x) = G i l c x.
Proof using K Hn Hd EA XJ.
  intros x i l c Hi Hl Hc. unfold cond_list, vget. rewrite app_nth1; [apply (comp3_nth R n (m - 1) d (fun i l c => G i l c x)); assumption|]. rewrite comp3_len. fold n d op m. unfold rowno.
  assert ((i + 1) * ((m - 1) * d) <= n * ((m - 1) * d))%nat by (apply Nat.mul_le_mono_r; lia). assert ((l + 1) * d <= (m - 1) * d)%nat by (apply Nat.mul_le_mono_r; lia). lia.
Qed.
Lemma cond_nth2 : forall x r, (n * ((m - 1) * d) <= r)%nat -> (r < num_condensed o nimp)%nat -> vget r (cond_list o alg nimp x) = vget (nth (r - n * ((m - 1) * d)) (kept_rows o alg nimp) 0%nat) (con x).
Proof using K Hn Hd EA XJ.
  intros x r H1 H2. unfold cond_list, vget. rewrite app_nth2 by (rewrite comp3_len; exact H1). rewrite comp3_len. fold n d op m. rewrite restl_kept.
  rewrite (nth_map_in _ _ _ _ _ _ 0%nat); [reflexivity|]. rewrite kept_len. unfold num_condensed in H2. fold op m n d ns in H2. nia.
Qed.

(** ** The chain rule *)
Lemma cont_jac_eq : forall x, List.length x = nd -> cont_jac o x = Ok (tri (jacR o) (jacC o) (jacV o x)).
Proof using K Hn Hd EA.
  intros x L. unfold cont_jac. rewrite (jac_struct o K Hn Hd). cbn [bind]. rewrite (jac_vals o K Hn Hd x L). reflexivity.
Qed.
Lemma chain_cont : forall x x' i l c q, List.length x = nd -> scl x' = scl x -> (forall j, (j < m)%nat -> vget (ib i j c) x' * dscl o q = Fv (i * (m - 1) + j) c x * dscl o q) ->
  (i < n)%nat -> (l < m - 1)%nat -> (c < d)%nat ->
  chainrule o alg nimp dots (tri (jacR o) (jacC o) (jacV o x')) (J x) (rowno (m - 1) d i l c) q = dG i l c q x.
Proof using K Hn Hd EA XJ.
  intros x x' i l c q L Es Ev Hi Hl Hc. unfold chainrule. rewrite ncc_eq.
  assert (rowno (m - 1) d i l c < n * ((m - 1) * d))%nat as Hlt.
  { unfold rowno. assert ((i + 1) * ((m - 1) * d) <= n * ((m - 1) * d))%nat by (apply Nat.mul_le_mono_r; lia). assert ((l + 1) * d <= (m - 1) * d)%nat by (apply Nat.mul_le_mono_r; lia). lia. }
  apply Nat.ltb_lt in Hlt. rewrite Hlt. rewrite xdot_eqs_eq. unfold CondProofs.dots. fold op ns d.
  rewrite (map2_blocks _ _ _ _ dt (fun k c => c + k * nimp)%nat d (seq 0 ns)), rsum_blocks.
  pose proof (fun q => jac_tri o K Hn Hd x' i l c q Hi Hl Hc) as JT. fold op m d in JT. rewrite JT.
  assert (rsum (map (fun k => rsum (map (fun c' => tri (jacR o) (jacC o) (jacV o x') (rowno (m - 1) d i l c) (dt k c') * J x (c' + k * nimp)%nat q) (seq 0 d))) (seq 0 ns)) =
          rsum (map (fun j => - mget l j B * (len i * scl x) * J x ((i * (m - 1) + j) * nimp + c)%nat q) (seq 0 m))) as ->.
  { transitivity (rsum (map (fun k => rsum (map (fun c' => rsum (map (fun j => - mget l j B * (len i * scl x) * delta (ib i j c) (dt k c') * J x (c' + k * nimp)%nat q) (seq 0 m))) (seq 0 d))) (seq 0 ns))).
    - apply rsum_ext. intros k Hk. apply in_seq in Hk. apply rsum_ext. intros c' Hc'. apply in_seq in Hc'. rewrite JT. unfold dF.
      rewrite (rsum_zero_seq (fun j => mget l j (t_A (oc_tr o)) * (if Nat.eqb (ia i j c) (dt k c') then 1 else 0))).
      2: { intros j Hj. destruct (Nat.eqb_spec (ia i j c) (dt k c')) as [E|]; [|ring]. exfalso. apply (ia_not_dot o K Hn Hd alg nimp EA i j c Hi Hj Hc). exists k, c'. fold op d. repeat split; [unfold ns in Hk; lia|lia|assumption]. }
      rewrite Rminus_0_l. rewrite <- (Rmult_1_l (rsum _)) at 1. rewrite Ropp_mult_distr_l. rewrite <- rsum_mult_l, Rmult_comm, <- rsum_mult_l. apply rsum_ext. intros j Hj.
      assert (dscl o (dt k c') = 0) as ->.
      { unfold dscl. destruct (oc_fixed o); [reflexivity|]. pose proof (dt_lt_isc o K Hn Hd k c' ltac:(fold op ns; lia) ltac:(fold d; lia)). destruct (Nat.eqb_spec isc (dt k c')); [lia|reflexivity]. }
      rewrite Es. fold (len i) B. unfold delta. ring.
    - transitivity (rsum (map (fun j => rsum (map (fun k => rsum (map (fun c' => - mget l j B * (len i * scl x) * delta (ib i j c) (dt k c') * J x (c' + k * nimp)%nat q) (seq 0 d))) (seq 0 ns))) (seq 0 m))).
      + rewrite <- (rsum_swap _ _ (fun k j => rsum (map (fun c' => - mget l j B * (len i * scl x) * delta (ib i j c) (dt k c') * J x (c' + k * nimp)%nat q) (seq 0 d)))).
        apply rsum_ext. intros k _. apply (rsum_swap _ _ (fun c' j => - mget l j B * (len i * scl x) * delta (ib i j c) (dt k c') * J x (c' + k * nimp)%nat q)).
      + apply rsum_ext. intros j Hj. apply in_seq in Hj. pose proof (stage_lt o K Hn Hd i j Hi ltac:(fold op m; lia)) as SL. fold op m ns in SL.
        rewrite (rsum_single_in _ (i * (m - 1) + j) ns SL).
        * rewrite (rsum_single_in _ c d Hc).
          -- change (dt (i * (m - 1) + j) c) with (ib i j c). unfold delta. rewrite Nat.eqb_refl. rewrite (Nat.add_comm c). ring.
          -- intros c' Hc' N. unfold delta. destruct (Nat.eqb_spec (ib i j c) (dt (i * (m - 1) + j) c')) as [E|]; [|ring]. rewrite (ib_dt o i j c) in E. apply (dt_inj o K Hn Hd) in E; [|exact Hc|exact Hc']. lia.
        * intros k Hk N. apply rsum_zero_seq. intros c' Hc'. unfold delta. destruct (Nat.eqb_spec (ib i j c) (dt k c')) as [E|]; [|ring]. rewrite (ib_dt o i j c) in E. apply (dt_inj o K Hn Hd) in E; [|exact Hc|exact Hc']. fold op m in E. lia. }
  unfold dF, dG. fold op m A B. unfold Rminus. rewrite Rplus_assoc. f_equal.
  rewrite <- (Rmult_1_l (rsum _)) at 1. rewrite Ropp_mult_distr_l, <- rsum_mult_l.
  rewrite <- (Rmult_1_l (rsum (map (fun j => mget l j B * (dFv _ _ _ _ * _ + _)) _))) at 1. rewrite Ropp_mult_distr_l, <- rsum_mult_l. rewrite <- rsum_plus.
  apply rsum_ext. intros j Hj. apply in_seq in Hj. specialize (Ev j ltac:(lia)). fold (len i). unfold dFv. rewrite Es. change (dt (i * (m - 1) + j) c) with (ib i j c). unfold delta.
  transitivity (-1 * (mget l j B * ((if Nat.eqb (ib i j c) q then 1 else 0) * (len i * scl x) + len i * (vget (ib i j c) x' * dscl o q))) + - mget l j B * (len i * scl x) * J x ((i * (m - 1) + j) * nimp + c)%nat q); [ring|]. rewrite Ev. ring.
Qed.

Definition cjac (x : list R) : nat -> nat -> R :=
  chainrule o alg nimp dots (tri (jacR o) (jacC o) (jacV o (if has_scale o then solved x else x))) (J x).
Lemma cjac_cont : forall x i l c q, List.length x = nd -> (i < n)%nat -> (l < m - 1)%nat -> (c < d)%nat -> cjac x (rowno (m - 1) d i l c) q = dG i l c q x.
Proof using K Hn Hd EA XJ.
  intros x i l c q L Hi Hl Hc. unfold cjac. destruct (oc_fixed o) as [s|] eqn:EF.
  - destruct (no_scale o K Hn Hd s EF) as [HS _]. rewrite HS. apply chain_cont; auto. intros j _. unfold dscl. rewrite EF. ring.
  - destruct (index_scale o K Hn Hd EF) as (_ & HS & _). rewrite HS. apply chain_cont; auto.
    + apply (dotfree_same o K Hn Hd scl x); [apply (scl_free o K Hn Hd alg nimp EA)|exact L|now apply (solved_sbd o K Hn Hd alg nimp EA)].
    + intros j Hj. f_equal. rewrite ib_dt. apply (solved_dot o K Hn Hd alg nimp EA); [apply (stage_lt o K Hn Hd); [exact Hi|exact Hj]|exact Hc].
Qed.
Lemma cjac_rest : forall x r q, (n * ((m - 1) * d) <= r)%nat -> cjac x r q = J x (nth (r - n * ((m - 1) * d)) (kept_rows o alg nimp) 0%nat) q.
Proof using K Hn Hd EA XJ.
  intros x r q H. unfold cjac, chainrule. rewrite ncc_eq. apply Nat.ltb_ge in H. now rewrite H.
Qed.
Lemma cjac_exact : is_jacobian nd (num_condensed o nimp) (cond_list o alg nimp) cjac.
Proof using K Hn Hd EA XJ.
  intros x r q L Hr Hq. destruct (Nat.lt_ge_cases r (n * ((m - 1) * d))) as [H|H].
  - destruct (rowno_surj (m - 1) d n r H) as (i & l & c & Hi & Hl & Hc & ->). rewrite cjac_cont by assumption.
    eapply pderiv_ext; [|apply pderiv_G; eassumption]. intro y. symmetry. now apply cond_nth1.
  - rewrite cjac_rest by assumption. eapply pderiv_ext; [intro y; symmetry; now apply cond_nth2|]. apply XJ; [exact L| |exact Hq]. apply kept_lt, nth_In. rewrite kept_len. unfold num_condensed in Hr. fold op m n d ns in Hr. nia.
Qed.
Lemma cjac_dot : forall x r q, List.length x = nd -> (r < num_condensed o nimp)%nat -> isdot q -> cjac x r q = 0.
Proof using K Hn Hd EA XJ.
  intros x r q L Hr Hq. destruct (Nat.lt_ge_cases r (n * ((m - 1) * d))) as [H|H].
  - destruct (rowno_surj (m - 1) d n r H) as (i & l & c & Hi & Hl & Hc & ->). rewrite cjac_cont by assumption. now apply dG_dot.
  - rewrite cjac_rest by assumption. apply kept_dot; [|assumption|assumption]. apply nth_In. rewrite kept_len. unfold num_condensed in Hr. fold op m n d ns in Hr. nia.
Qed.

(** ** with_dots *)
Variable fwd : list (list R) -> list (list R) -> list R -> list (list R).
Variable fmesh : list R.
Lemma with_dots_eq : forall x, oc_fixed o = None -> forward_agrees o alg nimp fwd fmesh -> List.length x = nd -> with_dots o fwd fmesh x = Ok (solved x).
Proof using K Hn Hd EA.
  intros x EF FA L. destruct (flatten_unflatten op x (NDG o K Hn Hd) (NVS o K Hn Hd) L) as (v & E & _ & HK). pose proof HK as [HK1 HK2].
  assert (sgroups op = ["states"; "inputs"; "states_dot"; "con_outputs"]) as ESG by (unfold op; apply (oo_sg o K)).
  assert (gnames op = ["mesh_scale"]) as EG by (unfold op; now rewrite (oo_gn o K), EF).
  destruct (HK1 "states") as (aS & GS & SS); [rewrite ESG; simpl; auto|]. destruct (HK1 "inputs") as (aI & GI & SI); [rewrite ESG; simpl; auto|]. destruct (HK1 "con_outputs") as (aC & GC & SC); [rewrite ESG; simpl; auto|].
  destruct (HK2 "mesh_scale") as (sc & GM); [rewrite EG; simpl; auto|].
  unfold with_dots. fold op. rewrite E. cbn [bind]. rewrite GS, GI, GC, GM. pose proof (scale_ok o K Hn Hd x L) as ES. rewrite ES. cbn [bind].
  destruct (FA x v aS aI (scl x) L E GS GI ES) as (LY & FY & HY). set (Y := fwd aS aI (map (fun m0 => m0 * scl x) fmesh)) in *. set (kw := [("states", FArr aS); _; _; _; _]).
  assert (kw_ok op kw) as HKw.
  { split.
    - intros g Hg. rewrite ESG in Hg. destruct Hg as [<-|[<-|[<-|[<-|[]]]]]; unfold kw; simpl; eexists; (split; [reflexivity|]); auto. split; [exact LY|]. rewrite (gsD o K Hn Hd : group_size op "states_dot" = d). exact FY.
    - intros g Hg. rewrite EG in Hg. destruct Hg as [<-|[]]. unfold kw. simpl. eauto. }
  destruct (unflatten_flatten op kw (NDG o K Hn Hd) (NVS o K Hn Hd) HKw) as (y & d2 & EFl & Ly & _). rewrite EFl. f_equal.
  apply vec_ext; [rewrite (solved_len o K Hn Hd alg nimp EA); exact Ly|]. intros q Hq. rewrite Ly in Hq.
  pose proof (proj1 (sbd_iff o K Hn Hd _ _) (solved_sbd o K Hn Hd alg nimp EA x L)) as [_ Hsol].
  destruct (Nat.lt_ge_cases q (num_all_stage_var op)) as [Hlt|Hge].
  - assert (~ In "global" (sgroups op)) as Hng by (rewrite ESG; simpl; intuition discriminate).
    destruct (index_surj_stage op q (oo_dvo o K) Hng Hlt) as (g & nm & s & Hv & Hs & Eidx).
    assert (g <> "global") as Hgg by (intros ->; apply Hng, Hv). destruct (index_of_in nm (gnames_of op g) (proj2 Hv)) as [c Hc].
    destruct (String.eqb_spec g "states_dot") as [->|Hne].
    + destruct (flat_value o K Hn Hd kw y "states_dot" nm s c Y HKw EFl Hgg Hv Hs Hc eq_refl) as (i & Ei & Vi & _). fold op in Ei. rewrite Eidx in Ei. injection Ei as <-.
      assert (dot_pos o s c q) as DP by (exists nm; split; [now apply index_of_lt in Hc|exact Eidx]). rewrite Vi. pose proof (HY s c q Hs DP) as HYv. apply (dot_pos_iff o K Hn Hd) in DP; [|exact Hs]. destruct DP as [Hcd ->].
      rewrite (solved_dot o K Hn Hd alg nimp EA x s c Hs Hcd). exact HYv.
    + assert (~ isdot q) as Nq.
      { intros (k & c' & Hk & Hc' & ->). assert (dot_pos o k c' (dt k c')) as (nm' & En & Ein) by (apply (dot_pos_iff o K Hn Hd); auto).
        assert (is_var op "states_dot" nm') as Hv' by (split; [rewrite ESG; simpl; auto|eapply nth_error_In; eauto]).
        destruct (index_inj op g nm s "states_dot" nm' k (dt k c') (oo_dvo o K) Hgg ltac:(discriminate) Hv Hv' Hs Hk Eidx Ein) as (X & _ & _). now apply Hne. }
      rewrite (Hsol q Nq).
      destruct (get_var_unflatten op x g nm s c (oo_dvo o K) (NDG o K Hn Hd) Hgg L Hv Hs Hc) as (d' & a' & w & E' & Ea' & Ev & Eg). rewrite E in E'. injection E' as <-.
      destruct (flat_value o K Hn Hd kw y g nm s c a' HKw EFl Hgg Hv Hs Hc) as (i & Ei & Vi & _).
      { pose proof (proj1 Hv) as HG. rewrite ESG in HG. destruct HG as [<-|[<-|[<-|[<-|[]]]]]; try congruence; unfold kw; simpl; congruence. }
      fold op in Ei. rewrite Eidx in Ei. injection Ei as <-. rewrite Vi. unfold get_var in Eg. rewrite Eidx in Eg. cbn [bind] in Eg. unfold array_get in Eg. destruct (nth_error x q) as [w'|] eqn:Ew; [|discriminate]. injection Eg as ->.
      unfold vget. rewrite (nth_error_nth _ _ _ Ew). now apply nth_error_nth.
  - assert (q = num_all_stage_var op) as -> by (unfold num_dec, num_global_var in Hq; rewrite EG in Hq; simpl in Hq; lia).
    destruct (flat_global o K Hn Hd kw y sc HKw EFl EF eq_refl) as [F _]. fold op in F. rewrite F.
    destruct (flatten_unflatten op x (NDG o K Hn Hd) (NVS o K Hn Hd) L) as (v2 & E2 & EFx & HK'). rewrite E in E2. injection E2 as <-.
    destruct (flat_global o K Hn Hd v x sc HK' EFx EF GM) as [F2 _]. fold op in F2. rewrite <- F2. symmetry. apply Hsol. intros (k & c & Hk & Hc & X). pose proof (dt_lt_isc o K Hn Hd k c Hk Hc) as Z. unfold OcpProofs.isc in Z. fold op in Z. lia.
Qed.
Lemma big_jac_eq : forall x, (oc_fixed o = None -> forward_agrees o alg nimp fwd fmesh) -> List.length x = nd -> big_jac o alg nimp fwd fmesh x = Ok (cjac x).
Proof using K Hn Hd EA.
  intros x FA L. unfold big_jac. fold op. rewrite (idx_eq o K Hn Hd : group_indices_in_dec op "states_dot" = _). cbn [bind]. unfold cjac. destruct (oc_fixed o) as [s|] eqn:EF.
  - destruct (no_scale o K Hn Hd s EF) as [HS _]. rewrite HS. cbn [bind]. now rewrite cont_jac_eq.
  - destruct (index_scale o K Hn Hd EF) as (_ & HS & _). rewrite HS. rewrite with_dots_eq by auto. cbn [bind]. rewrite cont_jac_eq; [reflexivity|]. apply (solved_len o K Hn Hd alg nimp EA).
Qed.

End Cond.
