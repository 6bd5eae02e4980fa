(** The continuity hessian is exact. *)
From Verif Require Import Base RBase TreeModel UtilsModel UtilsProofs UtilsProofs2 CollocModel CollocProofs CollocProofs2 CollocProps
  NlpModel NlpProofs NlpProofs2 MeshModel MeshProofs MeshProps OcpModel OcpProofs OcpProofs2.

Lemma rsum_swap : forall A B (f : A -> B -> R) l m,
  rsum (map (fun a => rsum (map (fun b => f a b) m)) l) = rsum (map (fun b => rsum (map (fun a => f a b) l)) m).
Proof.
  intros A B f l m; induction l as [|a l IH]; simpl.
  - symmetry. apply rsum_zero. apply Forall_map, Forall_forall. reflexivity.
  - rewrite IH. symmetry. apply (rsum_plus _ (fun b => f a b) (fun b => rsum (map (fun x => f x b) l))).
Qed.
Lemma rsum_concat : forall (L : list (list R)), rsum (concat L) = rsum (map rsum L).
Proof. intro L; induction L as [|a L IH]; simpl; [reflexivity|]. now rewrite rsum_app, IH. Qed.

Lemma skipn_skipn : forall A a b (l : list A), skipn a (skipn b l) = skipn (b + a) l.
Proof. intros A a b; induction b as [|b IH]; intro l; [reflexivity|]. destruct l; [now rewrite !skipn_nil|]. simpl. apply IH. Qed.
Lemma vdot_comp : forall a f n, List.length a = n -> vdot a (map f (seq 0 n)) = rsum (map (fun i => vget i a * f i) (seq 0 n)).
Proof.
  intros a f n L. unfold vdot, vmul. rewrite (list_comp _ a 0) at 1. rewrite L, map2_comp. reflexivity.
Qed.
Lemma firstn_vget : forall i k (a : list R), (i < k)%nat -> vget i (firstn k a) = vget i a.
Proof.
  intros i k a H. unfold vget. revert i a H; induction k as [|k IH]; intros i a H; [lia|]. destruct a as [|v a]; [reflexivity|]. destruct i as [|i]; [reflexivity|].
  simpl. apply IH. lia.
Qed.
Lemma skipn_vget : forall i k (a : list R), vget i (skipn k a) = vget (k + i) a.
Proof.
  intros i k a. unfold vget. revert a; induction k as [|k IH]; intro a; [reflexivity|]. destruct a as [|v a]; [destruct i; reflexivity|]. simpl. apply IH.
Qed.
Lemma vdot_blocks : forall k (g : nat -> list R) n a, (forall i, (i < n)%nat -> List.length (g i) = k) -> List.length a = (n * k)%nat ->
  vdot a (concat (map g (seq 0 n))) = rsum (map (fun i => vdot (firstn k (skipn (i * k) a)) (g i)) (seq 0 n)).
Proof.
  intros k g n; revert g. induction n as [|n IH]; intros g a Hg L.
  - simpl in *. destruct a; [reflexivity|discriminate].
  - cbn [seq map concat]. rewrite <- (firstn_skipn k a) at 1.
    rewrite vdot_app by (rewrite Hg by lia; rewrite firstn_length_le; lia). cbn [rsum fold_right].
    cbn [map]. unfold rsum at 1. cbn [fold_right]. fold rsum. f_equal.
    rewrite <- seq_shift, !map_map. rewrite (IH (fun i => g (S i)) (skipn k a)).
    + apply rsum_ext. intros i _. now rewrite skipn_skipn.
    + intros. apply Hg. lia.
    + rewrite skipn_length, L. lia.
Qed.
Lemma vdot_comp3 : forall n k d f a, List.length a = (n * (k * d))%nat ->
  vdot a (comp3 n k d f) = rsum (map (fun i => rsum (map (fun l => rsum (map (fun c => vget (rowno k d i l c) a * f i l c) (seq 0 d))) (seq 0 k))) (seq 0 n)).
Proof.
  intros n k d f a L. unfold comp3. rewrite (vdot_blocks (k * d)); [|intros; apply len_cmap; intros; now rewrite map_length, seq_length|assumption].
  apply rsum_ext. intros i Hi. apply in_seq in Hi.
  assert (i * (k * d) + k * d <= n * (k * d))%nat as Hb by (assert ((i + 1) * (k * d) <= n * (k * d))%nat by (apply Nat.mul_le_mono_r; lia); lia).
  assert (List.length (firstn (k * d) (skipn (i * (k * d)) a)) = (k * d)%nat) as L1 by (rewrite firstn_length_le; [reflexivity|rewrite skipn_length; lia]).
  rewrite (vdot_blocks d); [|intros; now rewrite map_length, seq_length|exact L1].
  apply rsum_ext. intros l Hl. apply in_seq in Hl.
  assert (l * d + d <= k * d)%nat as Hb2 by (assert ((l + 1) * d <= k * d)%nat by (apply Nat.mul_le_mono_r; lia); lia).
  rewrite vdot_comp by (rewrite firstn_length_le; [reflexivity|rewrite skipn_length, L1; lia]).
  apply rsum_ext. intros c Hc. apply in_seq in Hc. f_equal. rewrite firstn_vget by lia. rewrite skipn_vget, firstn_vget by lia. rewrite skipn_vget. unfold rowno. now rewrite Nat.add_assoc.
Qed.

Lemma chunks_comp : forall n k (a : list R), chunks n k a = map (fun i => firstn k (skipn (i * k) a)) (seq 0 n).
Proof.
  induction n as [|n IH]; intros k a; [reflexivity|]. simpl chunks. simpl. f_equal. rewrite IH, <- seq_shift, map_map. apply map_ext. intro i.
  now rewrite skipn_skipn.
Qed.

Section Hess.
Variable o : ocp.
Hypothesis K : ocp_ok o.
Hypothesis Hn : (1 <= num_intervals o)%nat.
Hypothesis Hd : (1 <= num_states o)%nat.
Let op := oc_op o.
Let m := nspi op.
Let n := num_intervals o.
Let d := num_states o.
Let nvs := num_var_stage op.
Let B := t_B (oc_tr o).
Let len i := vget i (interval_lengths (oc_mesh o)).
Notation ia := (ia o). Notation ib := (ib o). Notation isc := (isc o). Notation scl := (scl o). Notation Fdef := (Fdef o).

Definition hessR : list nat := comp3 n m d (fun i j c => ib i j c).
Definition hessC : list nat := comp3 n m d (fun _ _ _ => isc).
Definition hessV (lam : list R) : list R := comp3 n m d (fun i j c => rsum (map (fun l => - mget l j B * (vget (rowno (m - 1) d i l c) lam * len i)) (seq 0 (m - 1)))).

Lemma mtrans_comp : forall (M : mat) nc, mtrans M nc = map (fun j => map (fun l => mget l j M) (seq 0 (List.length M))) (seq 0 nc).
Proof using.
  intros M nc. unfold mtrans. apply map_ext. intro j. rewrite (list_comp _ M []) at 1. rewrite map_map. reflexivity.
Qed.

Lemma hess_vals : forall lam, List.length lam = (n * ((m - 1) * d))%nat -> continuity_hessian o lam = Ok (hessV lam).
Proof using K Hn Hd.
  intros lam L. unfold continuity_hessian. fold op m n d. rewrite L, Nat.mul_assoc, Nat.eqb_refl. cbn [negb].
  rewrite (lens_comp o K Hn Hd), map_length, seq_length. fold n. rewrite Nat.eqb_refl. cbn [negb]. f_equal.
  unfold hessV, comp3. unfold ravel3. rewrite concat_concat. f_equal.
  rewrite (chunks_comp n). rewrite (map_map _ (chunks (m - 1) d)). rewrite map2_comp, !map_map. apply map_seq_in. intros i Hi. f_equal.
  destruct (B_shape o K Hn Hd) as [LB FB]. fold op m B in LB, FB. fold B.
  assert (i * ((m - 1) * d) + (m - 1) * d <= n * ((m - 1) * d))%nat as Hb by (assert ((i + 1) * ((m - 1) * d) <= n * ((m - 1) * d))%nat by (apply Nat.mul_le_mono_r; lia); lia).
  assert (chunks (m - 1) d (firstn ((m - 1) * d) (skipn (i * ((m - 1) * d)) lam)) =
          map (fun l => map (fun c => vget (rowno (m - 1) d i l c) lam) (seq 0 d)) (seq 0 (m - 1))) as ->.
  { rewrite chunks_comp. apply map_seq_in. intros l Hl.
    assert (l * d + d <= (m - 1) * d)%nat as Hb2 by (assert ((l + 1) * d <= (m - 1) * d)%nat by (apply Nat.mul_le_mono_r; lia); lia).
    apply (list_eq_nth _ 0).
    - rewrite firstn_length_le; [now rewrite map_length, seq_length|]. rewrite skipn_length, firstn_length_le; [lia|rewrite skipn_length; lia].
    - intros c Hc. rewrite firstn_length_le in Hc; [|rewrite skipn_length, firstn_length_le; [lia|rewrite skipn_length; lia]].
      rewrite nth_comp by assumption.
      match goal with |- nth c ?X 0 = _ => change (nth c X 0) with (vget c X) end.
      rewrite firstn_vget by lia. rewrite skipn_vget, firstn_vget by lia. rewrite skipn_vget. unfold rowno. now rewrite Nat.add_assoc. }
  rewrite mscale_comp, mmul_comp.
  - rewrite mtrans_comp, map_length, seq_length. apply map_seq_in. intros j Hj. apply map_seq_in. intros c Hc. f_equal. apply map_seq_in. intros l Hl.
    f_equal. unfold mget at 1. rewrite nth_comp by assumption. unfold vget. rewrite nth_comp by (unfold mopp; rewrite map_length, LB; assumption).
    rewrite mopp_get. reflexivity.
  - rewrite mtrans_comp. apply Forall_map, Forall_forall. intros j _. unfold mopp. rewrite !map_length, seq_length. exact LB.
Qed.

Lemma comp3_const : forall A (v : A) a b c, comp3 a b c (fun _ _ _ => v) = repeat v (a * (b * c)).
Proof using.
  intros A v a b c. unfold comp3.
  assert (forall x (L : list A) y, L = repeat v y -> concat (map (fun _ => L) (seq 0 x)) = repeat v (x * y)) as H.
  { intros x L y ->. generalize 0%nat. induction x as [|x IH]; intro s; simpl; [reflexivity|]. rewrite IH. now rewrite <- repeat_app. }
  apply (H a _ (b * c)%nat). apply (H b _ c). symmetry. apply repeat_comp.
Qed.

Lemma hess_struct : oc_fixed o = None -> continuity_hessianstructure o = Ok (hessR, hessC).
Proof using K Hn Hd.
  intro E. unfold continuity_hessianstructure. fold op m n.
  rewrite (group_indices_contig op "states_dot" 2 0 (oo_dvo o K) (sgD o K Hn Hd) (num_stages_pos op) : group_indices_at op "states_dot" 0 = _).
  cbn [bind]. destruct (index_scale o K Hn Hd E) as (Ei & _ & _). fold op in Ei. rewrite Ei. cbn [bind].
  assert (ravel3 (map (fun i => map (map (fun v => v + i * (num_var_interval o - num_var_stage op))%nat)
     (map (fun j => map (fun v => v + j * num_var_stage op)%nat (map (fun c => off_of op 2 + c + 0 * num_var_stage op)%nat (seq 0 (group_size op "states_dot")))) (seq 0 m))) (seq 0 n)) = hessR) as EH.
  { unfold hessR, comp3, ravel3. rewrite concat_concat, map_map. f_equal. apply map_seq_in. intros i _. f_equal. rewrite map_map. apply map_seq_in. intros j _.
    rewrite !map_map. rewrite (gsD o K Hn Hd : group_size op "states_dot" = d). apply map_seq_in. intros c _. rewrite (offD_eq o K Hn Hd : off_of op 2 = _). unfold OcpProofs.ib. fold op m nvs.
    pose proof (m2 o K Hn Hd) as M2. fold op m in M2.
    assert (num_var_interval o - nvs = (m - 1) * nvs)%nat as -> by (unfold num_var_interval; fold op m nvs; nia). fold nvs. nia. }
  rewrite EH. f_equal. f_equal. unfold hessC. rewrite comp3_const. f_equal. unfold hessR. apply comp3_len.
Qed.

(** second derivative of one defect, upper triangle *)
Definition ddF (i l c p q : nat) : R :=
  rsum (map (fun j => - mget l j B * (len i * ((if Nat.eqb (ib i j c) p then 1 else 0) * dscl o q))) (seq 0 m)).

Lemma hess_F : forall i l c, (i < n)%nat -> (c < d)%nat -> is_hessian_on (fun p q => (p <= q)%nat) (num_dec op) (Fdef i l c) (fun _ p q => ddF i l c p q).
Proof using K Hn Hd.
  intros i l c Hi Hc. exists (fun x q => dF o i l c q x). split.
  - intros x q L Hq. now apply pderiv_F.
  - intros x p q L Hp Hq Hpq. unfold dF.
    eapply pderiv_eq; [|apply pderiv_sub; [apply pderiv_const|]].
    2: { apply (pderiv_rsum (fun j y => mget l j (t_B (oc_tr o)) * ((if Nat.eqb (ib i j c) p then 1 else 0) * (vget i (interval_lengths (oc_mesh o)) * scl y) + vget (ib i j c) y * (vget i (interval_lengths (oc_mesh o)) * dscl o p)))
           (fun j => mget l j B * ((if Nat.eqb (ib i j c) p then 1 else 0) * (len i * dscl o q) + (len i * dscl o p) * (if Nat.eqb (ib i j c) q then 1 else 0)))).
         intros j _. apply pderiv_scal. apply (pderiv_plus (fun y => (if Nat.eqb (ib i j c) p then 1 else 0) * (vget i (interval_lengths (oc_mesh o)) * scl y)) (fun y => vget (ib i j c) y * (vget i (interval_lengths (oc_mesh o)) * dscl o p))).
         - apply pderiv_scal, pderiv_scal. now apply pderiv_scl.
         - eapply pderiv_ext; [|apply (pderiv_scal (vget (ib i j c)) (len i * dscl o p)); apply pderiv_coord; lia]. intro y. simpl. fold (len i). ring. }
    unfold ddF. rewrite Rminus_0_l. rewrite <- (Rmult_1_l (rsum _)) at 1. rewrite Ropp_mult_distr_l, <- rsum_mult_l. apply rsum_ext. intros j Hj. apply in_seq in Hj.
    assert (dscl o p * (if Nat.eqb (ib i j c) q then 1 else 0) = 0) as Z.
    { unfold dscl. destruct (oc_fixed o) eqn:E; [lra|]. destruct (Nat.eqb_spec isc p); [|lra]. destruct (Nat.eqb_spec (ib i j c) q); [|lra].
      pose proof (ib_lt o K Hn Hd i j c Hi ltac:(fold op m; lia) Hc). lia. }
    rewrite Rmult_assoc, Z. ring.
Qed.

Lemma hess_exact : forall lam, oc_fixed o = None -> List.length lam = (n * ((m - 1) * d))%nat ->
  is_hessian_on (fun p q => (p <= q)%nat) (num_dec op) (fun x => vdot lam (con_list o x)) (fun _ => tri hessR hessC (hessV lam)).
Proof using K Hn Hd.
  intros lam E L.
  apply (hess_on_ext _ _ (fun x => rsum (map (fun i => rsum (map (fun l => rsum (map (fun c => vget (rowno (m - 1) d i l c) lam * Fdef i l c x) (seq 0 d))) (seq 0 (m - 1)))) (seq 0 n))) _
    (fun x p q => rsum (map (fun i => rsum (map (fun l => rsum (map (fun c => vget (rowno (m - 1) d i l c) lam * ddF i l c p q) (seq 0 d))) (seq 0 (m - 1)))) (seq 0 n))) _).
  - intros x Lx. symmetry. apply (vdot_comp3 n (m - 1) d (fun i l c => Fdef i l c x)). exact L.
  - intros x p q Lx Hpq. unfold hessR, hessC, hessV. rewrite tri_comp3. apply rsum_ext. intros i Hi.
    rewrite (rsum_swap _ _ (fun l c => vget (rowno (m - 1) d i l c) lam * ddF i l c p q)).
    rewrite (rsum_swap _ _ (fun j c => if (Nat.eqb (ib i j c) p && Nat.eqb isc q)%bool then rsum (map (fun l => - mget l j B * (vget (rowno (m - 1) d i l c) lam * len i)) (seq 0 (m - 1))) else 0)).
    apply rsum_ext. intros c Hc. unfold ddF.
    transitivity (rsum (map (fun l => rsum (map (fun j => vget (rowno (m - 1) d i l c) lam * (- mget l j B * (len i * ((if Nat.eqb (ib i j c) p then 1 else 0) * dscl o q)))) (seq 0 m))) (seq 0 (m - 1)))).
    { apply rsum_ext. intros l _. now rewrite rsum_mult_l. }
    rewrite (rsum_swap _ _ (fun l j => vget (rowno (m - 1) d i l c) lam * (- mget l j B * (len i * ((if Nat.eqb (ib i j c) p then 1 else 0) * dscl o q))))).
    apply rsum_ext. intros j _. unfold dscl. rewrite E. destruct (Nat.eqb (ib i j c) p), (Nat.eqb isc q); cbn [andb].
    + apply rsum_ext. intros l _. ring.
    + apply rsum_zero, Forall_map, Forall_forall. intros; ring.
    + apply rsum_zero, Forall_map, Forall_forall. intros; ring.
    + apply rsum_zero, Forall_map, Forall_forall. intros; ring.
  - apply hess_on_sum. intros i Hi. apply in_seq in Hi. apply hess_on_sum. intros l _. apply hess_on_sum. intros c Hc. apply in_seq in Hc.
    apply hess_on_scal. apply hess_F; lia.
Qed.

(** on a fixed mesh the defects are linear: every second derivative is zero *)
Lemma hess_fixed : forall lam s, oc_fixed o = Some s -> List.length lam = (n * ((m - 1) * d))%nat ->
  is_hessian (num_dec op) (fun x => vdot lam (con_list o x)) (fun _ _ _ => 0).
Proof using K Hn Hd.
  intros lam s E L. exists (fun x q => rsum (map (fun i => rsum (map (fun l => rsum (map (fun c => vget (rowno (m - 1) d i l c) lam * dF o i l c q x) (seq 0 d))) (seq 0 (m - 1)))) (seq 0 n))). split.
  - intros x q Lx Hq. eapply pderiv_ext_len; [intros y Ly; symmetry; apply (vdot_comp3 n (m - 1) d (fun i l c => Fdef i l c y)); exact L|].
    apply pderiv_rsum. intros i _. apply pderiv_rsum. intros l _. apply pderiv_rsum. intros c _. apply pderiv_scal. now apply pderiv_F.
  - intros x p q Lx Hp Hq. eapply pderiv_ext; [|apply pderiv_const with (c := rsum (map (fun i => rsum (map (fun l => rsum (map (fun c => vget (rowno (m - 1) d i l c) lam * dF o i l c p x) (seq 0 d))) (seq 0 (m - 1)))) (seq 0 n)))].
    intro y. simpl. apply rsum_ext. intros i _. apply rsum_ext. intros l _. apply rsum_ext. intros c _. f_equal.
    unfold dF, dscl, OcpProofs.scl. rewrite E. f_equal. apply rsum_ext. intros j _. f_equal. ring.
Qed.

Lemma hess_range : oc_fixed o = None -> Forall (fun q => (q < num_dec op)%nat) hessR /\ Forall (fun q => (q < num_dec op)%nat) hessC /\
  List.length hessR = List.length hessC /\ forall lam, List.length (hessV lam) = List.length hessR.
Proof using K Hn Hd.
  intro E. destruct (index_scale o K Hn Hd E) as (_ & _ & H2). fold op in H2.
  assert (forall (P : nat -> Prop) f, (forall i l c, (i < n)%nat -> (l < m)%nat -> (c < d)%nat -> P (f i l c)) -> Forall P (comp3 n m d f)) as F3.
  { intros P f H. unfold comp3. apply Forall_concat, Forall_map, Forall_forall. intros i Hi. apply in_seq in Hi. apply Forall_concat, Forall_map, Forall_forall. intros l Hl. apply in_seq in Hl.
    apply Forall_map, Forall_forall. intros c Hc. apply in_seq in Hc. apply H; lia. }
  split; [apply F3; intros i j c Hi Hj Hc; pose proof (ib_lt o K Hn Hd i j c Hi Hj Hc); lia|].
  split; [apply F3; intros; lia|]. unfold hessR, hessC, hessV. split; [now rewrite !comp3_len|]. intro. now rewrite !comp3_len.
Qed.
End Hess.
