(** The continuity jacobian and hessian are exact. *)
From Verif Require Import Base RBase TreeModel UtilsModel UtilsProofs UtilsProofs2 CollocModel CollocProofs CollocProofs2 CollocProps
  NlpModel NlpProofs NlpProofs2 MeshModel MeshProofs MeshProps OcpModel OcpProofs.

Lemma concat_concat : forall A (X : list (list (list A))), concat (concat X) = concat (map (@concat A) X).
Proof. intros A X; induction X as [|Y X IH]; simpl; [reflexivity|]. now rewrite concat_app, IH. Qed.
Lemma ravel4_eq : forall A (X : list (list (list (list A)))), ravel4 X = concat (map (fun Y => concat (map (@concat A) Y)) X).
Proof.
  intros. unfold ravel4. rewrite concat_concat. rewrite concat_map. rewrite concat_concat. rewrite map_map. reflexivity.
Qed.

Lemma tri_cmap : forall I (fr fc : I -> list nat) (fv : I -> list R) L r q,
  (forall a, In a L -> List.length (fr a) = List.length (fc a) /\ List.length (fr a) = List.length (fv a)) ->
  tri (concat (map fr L)) (concat (map fc L)) (concat (map fv L)) r q = rsum (map (fun a => tri (fr a) (fc a) (fv a) r q) L).
Proof.
  intros I fr fc fv L r q H; induction L as [|a L IH]; simpl; [reflexivity|].
  destruct (H a (or_introl eq_refl)). rewrite tri_app by assumption. rewrite IH; [reflexivity|]. intros; apply H; simpl; auto.
Qed.
Lemma tri_comp : forall I (fr fc : I -> nat) (fv : I -> R) L r q,
  tri (map fr L) (map fc L) (map fv L) r q = rsum (map (fun a => if (Nat.eqb (fr a) r && Nat.eqb (fc a) q)%bool then fv a else 0) L).
Proof. intros I fr fc fv L r q; induction L as [|a L IH]; simpl; [reflexivity|]. now rewrite IH. Qed.

Lemma rsum_single_in : forall (g : nat -> R) a n, (a < n)%nat -> (forall j, (j < n)%nat -> j <> a -> g j = 0) -> rsum (map g (seq 0 n)) = g a.
Proof.
  intros g a n Ha H. rewrite (map_seq_in _ g (fun j => if Nat.eqb j a then g a else 0)).
  - rewrite (rsum_single (fun j => if Nat.eqb j a then g a else 0) a); [now rewrite Nat.eqb_refl|lia|].
    intros j Hj. apply Nat.eqb_neq in Hj. now rewrite Hj.
  - intros j Hj. destruct (Nat.eqb_spec j a); [now subst|]. now apply H.
Qed.
Lemma rsum_zero_seq : forall (g : nat -> R) n, (forall j, (j < n)%nat -> g j = 0) -> rsum (map g (seq 0 n)) = 0.
Proof. intros g n H. apply rsum_zero. apply Forall_map, Forall_forall. intros j Hj. apply in_seq in Hj. apply H. lia. Qed.

Lemma pderiv_sub : forall f g x j a b, pderiv f x j a -> pderiv g x j b -> pderiv (fun y => f y - g y) x j (a - b).
Proof.
  intros f g x j a b Hf Hg. eapply pderiv_ext; [|eapply pderiv_eq; [|exact (pderiv_plus _ _ _ _ _ _ Hf (pderiv_scal _ (-1) _ _ _ Hg))]].
  - intro y. simpl. lra.
  - lra.
Qed.

(** 4-fold and 3-fold raveled comprehensions *)
Definition comp4 {A} (n k m d : nat) (f : nat -> nat -> nat -> nat -> A) : list A :=
  concat (map (fun i => concat (map (fun l => concat (map (fun j => map (fun c => f i l j c) (seq 0 d)) (seq 0 m))) (seq 0 k))) (seq 0 n)).
Definition comp3 {A} (n k d : nat) (f : nat -> nat -> nat -> A) : list A :=
  concat (map (fun i => concat (map (fun l => map (fun c => f i l c) (seq 0 d)) (seq 0 k))) (seq 0 n)).

Lemma len_cmap : forall A k (f : nat -> list A) n, (forall i, (i < n)%nat -> List.length (f i) = k) -> List.length (concat (map f (seq 0 n))) = (n * k)%nat.
Proof.
  intros A k f n H. rewrite (length_concat_k _ k); [now rewrite map_length, seq_length|]. apply Forall_map, Forall_forall. intros i Hi. apply in_seq in Hi. apply H. lia.
Qed.
Lemma comp3_len : forall A n k d (f : nat -> nat -> nat -> A), List.length (comp3 n k d f) = (n * (k * d))%nat.
Proof. intros. unfold comp3. apply len_cmap. intros. apply len_cmap. intros. now rewrite map_length, seq_length. Qed.
Lemma comp4_len : forall A n k m d (f : nat -> nat -> nat -> nat -> A), List.length (comp4 n k m d f) = (n * (k * (m * d)))%nat.
Proof. intros. unfold comp4. apply len_cmap. intros. apply len_cmap. intros. apply len_cmap. intros. now rewrite map_length, seq_length. Qed.

Lemma tri_comp4 : forall n k m d fr fc fv r q, tri (comp4 n k m d fr) (comp4 n k m d fc) (comp4 n k m d fv) r q =
  rsum (map (fun i => rsum (map (fun l => rsum (map (fun j => rsum (map (fun c =>
    if (Nat.eqb (fr i l j c) r && Nat.eqb (fc i l j c) q)%bool then fv i l j c else 0) (seq 0 d))) (seq 0 m))) (seq 0 k))) (seq 0 n)).
Proof.
  intros. unfold comp4. rewrite tri_cmap.
  - apply rsum_ext. intros i _. rewrite tri_cmap.
    + apply rsum_ext. intros l _. rewrite tri_cmap.
      * apply rsum_ext. intros j _. apply tri_comp.
      * intros j _. rewrite !map_length. auto.
    + intros l _. split; rewrite !(len_cmap _ d); auto; intros; now rewrite map_length, seq_length.
  - intros i _. split; rewrite !(len_cmap _ (m * d)); auto; intros; apply len_cmap; intros; now rewrite map_length, seq_length.
Qed.
Lemma tri_comp3 : forall n k d fr fc fv r q, tri (comp3 n k d fr) (comp3 n k d fc) (comp3 n k d fv) r q =
  rsum (map (fun i => rsum (map (fun l => rsum (map (fun c =>
    if (Nat.eqb (fr i l c) r && Nat.eqb (fc i l c) q)%bool then fv i l c else 0) (seq 0 d))) (seq 0 k))) (seq 0 n)).
Proof.
  intros. unfold comp3. rewrite tri_cmap.
  - apply rsum_ext. intros i _. rewrite tri_cmap.
    + apply rsum_ext. intros l _. apply tri_comp.
    + intros l _. rewrite !map_length. auto.
  - intros i _. split; rewrite !(len_cmap _ d); auto; intros; now rewrite map_length, seq_length.
Qed.

(** row number of (interval i, row l, state c) *)
Definition rowno (k d i l c : nat) : nat := (i * (k * d) + (l * d + c))%nat.
Lemma rowno_inj : forall k d i l c i' l' c', (l < k)%nat -> (l' < k)%nat -> (c < d)%nat -> (c' < d)%nat ->
  rowno k d i l c = rowno k d i' l' c' -> i = i' /\ l = l' /\ c = c'.
Proof.
  intros k d i l c i' l' c' Hl Hl' Hc Hc' E. unfold rowno in E.
  assert (l * d + c < k * d)%nat by nia. assert (l' * d + c' < k * d)%nat by nia.
  destruct (mixed_radix (k * d) (l * d + c) (l' * d + c') i i') as [E1 ->]; [assumption|assumption|lia|].
  destruct (mixed_radix d c c' l l') as [-> ->]; [assumption|assumption|lia|]. auto.
Qed.

Lemma collapse4 : forall n k m d (fc : nat -> nat -> nat -> nat -> nat) fv i l c q, (i < n)%nat -> (l < k)%nat -> (c < d)%nat ->
  tri (comp4 n k m d (fun i l j c => rowno k d i l c)) (comp4 n k m d fc) (comp4 n k m d fv) (rowno k d i l c) q =
  rsum (map (fun j => if Nat.eqb (fc i l j c) q then fv i l j c else 0) (seq 0 m)).
Proof.
  intros n k m d fc fv i l c q Hi Hl Hc. rewrite tri_comp4.
  rewrite (rsum_single_in _ i n Hi).
  - rewrite (rsum_single_in _ l k Hl).
    + apply rsum_ext. intros j _. rewrite (rsum_single_in _ c d Hc).
      * now rewrite Nat.eqb_refl.
      * intros c' Hc' Hne. destruct (Nat.eqb_spec (rowno k d i l c') (rowno k d i l c)) as [E|E]; [|reflexivity].
        apply rowno_inj in E; try assumption. intuition congruence.
    + intros l' Hl' Hne. apply rsum_zero_seq. intros j _. apply rsum_zero_seq. intros c' Hc'.
      destruct (Nat.eqb_spec (rowno k d i l' c') (rowno k d i l c)) as [E|E]; [|reflexivity]. apply rowno_inj in E; try assumption. intuition congruence.
  - intros i' Hi' Hne. apply rsum_zero_seq. intros l' Hl'. apply rsum_zero_seq. intros j _. apply rsum_zero_seq. intros c' Hc'.
    destruct (Nat.eqb_spec (rowno k d i' l' c') (rowno k d i l c)) as [E|E]; [|reflexivity]. apply rowno_inj in E; try assumption. intuition congruence.
Qed.
Lemma collapse3 : forall n k d (fc : nat -> nat -> nat -> nat) fv i l c q, (i < n)%nat -> (l < k)%nat -> (c < d)%nat ->
  tri (comp3 n k d (rowno k d)) (comp3 n k d fc) (comp3 n k d fv) (rowno k d i l c) q =
  if Nat.eqb (fc i l c) q then fv i l c else 0.
Proof.
  intros n k d fc fv i l c q Hi Hl Hc. rewrite tri_comp3.
  rewrite (rsum_single_in _ i n Hi).
  - rewrite (rsum_single_in _ l k Hl).
    + rewrite (rsum_single_in _ c d Hc).
      * now rewrite Nat.eqb_refl.
      * intros c' Hc' Hne. destruct (Nat.eqb_spec (rowno k d i l c') (rowno k d i l c)) as [E|E]; [|reflexivity].
        apply rowno_inj in E; try assumption. intuition congruence.
    + intros l' Hl' Hne. apply rsum_zero_seq. intros c' Hc'.
      destruct (Nat.eqb_spec (rowno k d i l' c') (rowno k d i l c)) as [E|E]; [|reflexivity]. apply rowno_inj in E; try assumption. intuition congruence.
  - intros i' Hi' Hne. apply rsum_zero_seq. intros l' Hl'. apply rsum_zero_seq. intros c' Hc'.
    destruct (Nat.eqb_spec (rowno k d i' l' c') (rowno k d i l c)) as [E|E]; [|reflexivity]. apply rowno_inj in E; try assumption. intuition congruence.
Qed.

(** every constraint number is one rowno *)
Lemma rowno_surj : forall k d n r, (r < n * (k * d))%nat -> exists i l c, (i < n)%nat /\ (l < k)%nat /\ (c < d)%nat /\ r = rowno k d i l c.
Proof.
  intros k d n r H. assert (0 < k * d)%nat by nia. assert (0 < d)%nat by nia.
  exists (r / (k * d))%nat, ((r mod (k * d)) / d)%nat, ((r mod (k * d)) mod d)%nat.
  pose proof (Nat.mod_upper_bound r (k * d) ltac:(lia)). pose proof (Nat.mod_upper_bound (r mod (k * d)) d ltac:(lia)).
  split; [apply Nat.div_lt_upper_bound; lia|]. split; [apply Nat.div_lt_upper_bound; lia|]. split; [assumption|].
  unfold rowno. pose proof (Nat.div_mod r (k * d) ltac:(lia)). pose proof (Nat.div_mod (r mod (k * d)) d ltac:(lia)). nia.
Qed.

Section Jac.
Variable o : ocp.
Hypothesis K : ocp_ok o.
Hypothesis Hn : (1 <= num_intervals o)%nat.
Hypothesis Hd : (1 <= num_states o)%nat.
Let op := oc_op o.
Let m := nspi op.
Let n := num_intervals o.
Let d := num_states o.
Let nvs := num_var_stage op.
Let A := t_A (oc_tr o).
Let B := t_B (oc_tr o).
Let len i := vget i (interval_lengths (oc_mesh o)).
Notation ia := (ia o). Notation ib := (ib o). Notation isc := (isc o). Notation scl := (scl o). Notation Fdef := (Fdef o).

(** derivative of the mesh scale in variable q *)
Definition dscl (q : nat) : R := match oc_fixed o with Some _ => 0 | None => if Nat.eqb isc q then 1 else 0 end.

Lemma pderiv_scl : forall x q, List.length x = num_dec op -> (q < num_dec op)%nat -> pderiv scl x q (dscl q).
Proof using K Hn Hd.
  intros x q L Hq. unfold OcpProofs.scl, dscl. destruct (oc_fixed o); [apply pderiv_const|]. apply pderiv_coord. lia.
Qed.

Definition dF (i l c q : nat) (x : list R) : R :=
  rsum (map (fun j => mget l j A * (if Nat.eqb (ia i j c) q then 1 else 0)) (seq 0 m)) -
  rsum (map (fun j => mget l j B * ((if Nat.eqb (ib i j c) q then 1 else 0) * (len i * scl x) + vget (ib i j c) x * (len i * dscl q))) (seq 0 m)).

Lemma pderiv_F : forall i l c x q, List.length x = num_dec op -> (q < num_dec op)%nat -> pderiv (Fdef i l c) x q (dF i l c q x).
Proof using K Hn Hd.
  intros i l c x q L Hq. unfold OcpProofs.Fdef, dF. apply pderiv_sub.
  - apply (pderiv_rsum (fun j y => mget l j A * vget (ia i j c) y) (fun j => mget l j A * (if Nat.eqb (ia i j c) q then 1 else 0))).
    intros j _. apply pderiv_scal. apply pderiv_coord. lia.
  - apply (pderiv_rsum (fun j y => mget l j B * (vget (ib i j c) y * (len i * scl y)))
       (fun j => mget l j B * ((if Nat.eqb (ib i j c) q then 1 else 0) * (len i * scl x) + vget (ib i j c) x * (len i * dscl q)))).
    intros j _. apply pderiv_scal. apply (pderiv_mult (vget (ib i j c)) (fun y => len i * scl y)).
    + apply pderiv_coord. lia.
    + apply pderiv_scal. now apply pderiv_scl.
Qed.

Lemma jac_vals : forall x, List.length x = num_dec op -> continuity_jacobian o x =
  Ok (comp4 n (m - 1) m d (fun i l j c => mget l j A) ++ comp4 n (m - 1) m d (fun i l j c => - mget l j B * (len i * scl x)) ++
      match oc_fixed o with Some _ => [] | None => comp3 n (m - 1) d (fun i l c => rsum (map (fun j => - mget l j B * vget (ib i j c) x) (seq 0 m)) * len i) end).
Proof using K Hn Hd.
  intros x L. unfold continuity_jacobian. rewrite (scale_ok o K Hn Hd x L). cbn [bind]. fold op.
  unfold phys_lengths. rewrite (lens_comp o K Hn Hd). rewrite !map_length, seq_length. fold n.
  destruct (Nat.eqb_spec n 0) as [Z|_]; [unfold n in Z; lia|]. fold d. destruct (Nat.eqb_spec d 0) as [Z|_]; [unfold d in Z; lia|].
  cbn [orb]. rewrite Nat.eqb_refl. cbn [negb]. fold A B.
  destruct (A_shape o K Hn Hd) as [LA FA]. destruct (B_shape o K Hn Hd) as [LB FB]. fold op m in LA, FA, LB, FB.
  assert (concat (map (fun M => concat (map (@concat R) M)) (map (map (map (fun v => repeat v d))) (repeat A n))) =
          comp4 n (m - 1) m d (fun i l j c => mget l j A)) as ->.
  { rewrite repeat_comp, !map_map. unfold comp4. f_equal. apply map_seq_in. intros i _. f_equal.
    fold A in LA, FA. rewrite (mat_comp A m FA) at 1. rewrite LA, map_map. apply map_seq_in. intros l _. f_equal. rewrite map_map. apply map_seq_in. intros j _. apply repeat_comp. }
  assert (concat (map (fun M => concat (map (@concat R) M)) (map (map (map (fun v => repeat v d))) (map2 mscale (repeat (mopp B) n) (map (fun l => l * scl x) (map (fun i => vget i (interval_lengths (oc_mesh o))) (seq 0 n)))))) =
          comp4 n (m - 1) m d (fun i l j c => - mget l j B * (len i * scl x))) as ->.
  { rewrite repeat_comp. rewrite (map_map _ (fun l => l * scl x)). rewrite map2_comp, !map_map. unfold comp4. f_equal. apply map_seq_in. intros i _. f_equal.
    fold B in LB, FB. rewrite (mat_comp (mopp B) m (mopp_shape _ _ FB)) at 1. rewrite mscale_comp. unfold mopp at 2. rewrite map_length, LB. rewrite !map_map.
    apply map_seq_in. intros l _. f_equal. rewrite map_map. apply map_seq_in. intros j _. rewrite repeat_comp. apply map_seq_in. intros c _. rewrite mopp_get. reflexivity. }
  destruct (oc_fixed o) as [s|] eqn:E.
  - destruct (no_scale o K Hn Hd s E) as [-> _]. rewrite app_nil_r. reflexivity.
  - destruct (index_scale o K Hn Hd E) as (_ & -> & _). unfold op; rewrite (tensorD o K Hn Hd x L); fold op. cbn [bind rows]. f_equal. rewrite <- app_assoc. f_equal. f_equal.
    unfold comp3. f_equal. fold op m n d. rewrite map2_comp, map_map. apply map_seq_in. intros i _. f_equal.
    rewrite mmul_comp by (now apply mopp_shape). rewrite mscale_comp. unfold mopp at 2. rewrite map_length. fold B in LB. rewrite LB.
    apply map_seq_in. intros l _. apply map_seq_in. intros c _. f_equal. f_equal. apply map_seq_in. intros j _. rewrite mopp_get. lra.
Qed.

Lemma idx_first : forall g k c nm, nth_error (sgroups op) k = Some g -> g <> "global" -> nth_error (gnames_of op g) c = Some nm ->
  forall s, (s < num_stages op)%nat -> index_at op g nm (Z.of_nat s) = Ok (off_of op k + c + s * nvs)%nat.
Proof using K Hn Hd.
  intros g k c nm Hk Hg Hc s Hs. unfold index_at. destruct (String.eqb_spec g "global"); [contradiction|].
  rewrite norm_stage_nat by assumption. cbn [bind]. unfold enum_get.
  rewrite (index_of_svname op k g c nm (oo_dvo o K) Hk Hc). reflexivity.
Qed.

Lemma jac_struct : continuity_jacobianstructure o = Ok
   (comp4 n (m - 1) m d (fun i l j c => rowno (m - 1) d i l c) ++ comp4 n (m - 1) m d (fun i l j c => rowno (m - 1) d i l c) ++
      match oc_fixed o with Some _ => [] | None => comp3 n (m - 1) d (rowno (m - 1) d) end,
    comp4 n (m - 1) m d (fun i l j c => ia i j c) ++ comp4 n (m - 1) m d (fun i l j c => ib i j c) ++
      match oc_fixed o with Some _ => [] | None => comp3 n (m - 1) d (fun i l c => isc) end).
Proof using K Hn Hd.
  unfold continuity_jacobianstructure. fold op m n d.
  assert (exists fs r, gnames_of op "states" = fs :: r) as (fs & r & Ef).
  { destruct (gnames_of op "states") as [|a r] eqn:E; [|eauto]. exfalso. unfold num_states, group_size in Hd. fold op in Hd. rewrite E in Hd. simpl in Hd. lia. }
  assert (gnames_of op "states_dot" = fs :: r) as Ed by (unfold op; rewrite (oo_d o K); exact Ef).
  rewrite Ef, Ed. cbn [first_of bind].
  rewrite (idx_first "states" 0 0 fs (sgS o K Hn Hd) ltac:(discriminate) ltac:(rewrite Ef; reflexivity) 0 (num_stages_pos op) : index_at op "states" fs 0 = _).
  rewrite (idx_first "states_dot" 2 0 fs (sgD o K Hn Hd) ltac:(discriminate) ltac:(rewrite Ed; reflexivity) 0 (num_stages_pos op) : index_at op "states_dot" fs 0 = _).
  cbn [bind]. rewrite (offD_eq o K Hn Hd : off_of op 2 = _). change (off_of op 0) with 0%nat.
  pose proof (m2 o K Hn Hd) as M2. fold op m in M2.
  assert (stack_last (stack0 (map (fun l => repeat (l * d)%nat m) (seq 0 (m - 1))) n ((m - 1) * d)) d 1 =
     map (fun i => map (fun l => map (fun j => map (fun c => rowno (m - 1) d i l c) (seq 0 d)) (seq 0 m)) (seq 0 (m - 1))) (seq 0 n)) as ER.
  { unfold stack_last, stack0. rewrite map_map. apply map_seq_in. intros i _. rewrite !map_map. apply map_seq_in. intros l _. rewrite repeat_comp, !map_map.
    apply map_seq_in. intros j _. apply map_seq_in. intros c _. unfold rowno. lia. }
  assert (num_var_interval o - num_var_stage op = (m - 1) * nvs)%nat as ENI by (unfold num_var_interval; fold op m nvs; nia).
  assert (stack_last (stack0 (repeat (map (fun j => 0 + 0 + 0 * nvs + j * num_var_stage op)%nat (seq 0 m)) (m - 1)) n (num_var_interval o - num_var_stage op)) d 1 =
     map (fun i => map (fun l => map (fun j => map (fun c => ia i j c) (seq 0 d)) (seq 0 m)) (seq 0 (m - 1))) (seq 0 n)) as EC.
  { unfold stack_last, stack0. rewrite map_map, ENI. apply map_seq_in. intros i _. rewrite !map_map, repeat_comp, map_map. apply map_seq_in. intros l _. rewrite !map_map.
    apply map_seq_in. intros j _. apply map_seq_in. intros c _. unfold OcpProofs.ia, offS. fold op m nvs. nia. }
  fold nvs in EC |- *. rewrite ER, EC.
  assert (map (map (map (map (fun v => Z.to_nat (Z.of_nat v + (Z.of_nat (offD o + 0 + 0 * nvs) - Z.of_nat (0 + 0 + 0 * nvs)))))))
     (map (fun i => map (fun l => map (fun j => map (fun c => ia i j c) (seq 0 d)) (seq 0 m)) (seq 0 (m - 1))) (seq 0 n)) =
     map (fun i => map (fun l => map (fun j => map (fun c => ib i j c) (seq 0 d)) (seq 0 m)) (seq 0 (m - 1))) (seq 0 n)) as EB.
  { rewrite map_map. apply map_seq_in. intros i _. rewrite map_map. apply map_seq_in. intros l _. rewrite map_map. apply map_seq_in. intros j _. rewrite map_map. apply map_seq_in. intros c _.
    unfold OcpProofs.ia, OcpProofs.ib, offS. generalize ((i * (nspi (oc_op o) - 1) + j) * num_var_stage (oc_op o))%nat (offD o). intros; lia. }
  rewrite EB. 
  assert (forall f : nat -> nat -> nat -> nat -> nat, ravel4 (map (fun i => map (fun l => map (fun j => map (fun c => f i l j c) (seq 0 d)) (seq 0 m)) (seq 0 (m - 1))) (seq 0 n)) = comp4 n (m - 1) m d f) as R4.
  { intro f. rewrite ravel4_eq, map_map. unfold comp4. f_equal. apply map_ext. intro i. now rewrite map_map. }
  rewrite (R4 (fun i l j c => rowno (m - 1) d i l c)), (R4 (fun i l j c => ia i j c)), (R4 (fun i l j c => ib i j c)).
  destruct (oc_fixed o) as [s|] eqn:E.
  - destruct (no_scale o K Hn Hd s E) as [-> _]. rewrite !app_nil_r. reflexivity.
  - destruct (index_scale o K Hn Hd E) as (Ei & -> & _). fold op in Ei. rewrite Ei. cbn [bind].
    assert (map (map (fun M => nth 0 M [])) (map (fun i => map (fun l => map (fun j => map (fun c => rowno (m - 1) d i l c) (seq 0 d)) (seq 0 m)) (seq 0 (m - 1))) (seq 0 n)) =
      map (fun i => map (fun l => map (fun c => rowno (m - 1) d i l c) (seq 0 d)) (seq 0 (m - 1))) (seq 0 n)) as ->.
    { rewrite map_map. apply map_seq_in. intros i _. rewrite map_map. apply map_seq_in. intros l _. rewrite nth_comp by lia. reflexivity. }
    assert (ravel3 (map (fun i => map (fun l => map (fun c => rowno (m - 1) d i l c) (seq 0 d)) (seq 0 (m - 1))) (seq 0 n)) = comp3 n (m - 1) d (rowno (m - 1) d)) as ->.
    { unfold ravel3. rewrite concat_concat, map_map. reflexivity. }
    rewrite !app_assoc. f_equal. f_equal. f_equal. rewrite comp3_len. unfold comp3.
    symmetry. clear. generalize isc as v. intro v. rewrite repeat_comp.
    assert (forall L : list nat, Forall (fun a => a = v) L -> L = map (fun _ => v) (seq 0 (List.length L))) as H.
    { intros L F. rewrite (list_comp _ L v) at 1. apply map_seq_in. intros i Hi. rewrite Forall_forall in F. apply F. now apply nth_In. }
    assert (List.length (concat (map (fun i : nat => concat (map (fun l : nat => map (fun c : nat => v) (seq 0 d)) (seq 0 (m - 1)))) (seq 0 n))) = (n * ((m - 1) * d))%nat) as EL.
    { apply len_cmap. intros. apply len_cmap. intros. now rewrite map_length, seq_length. }
    rewrite <- EL. apply H. apply Forall_concat, Forall_map, Forall_forall. intros i _. apply Forall_concat, Forall_map, Forall_forall. intros l _. apply Forall_map, Forall_forall. reflexivity.
Qed.

Definition jacR : list nat := comp4 n (m - 1) m d (fun i l j c => rowno (m - 1) d i l c) ++ comp4 n (m - 1) m d (fun i l j c => rowno (m - 1) d i l c) ++
      match oc_fixed o with Some _ => [] | None => comp3 n (m - 1) d (rowno (m - 1) d) end.
Definition jacC : list nat := comp4 n (m - 1) m d (fun i l j c => ia i j c) ++ comp4 n (m - 1) m d (fun i l j c => ib i j c) ++
      match oc_fixed o with Some _ => [] | None => comp3 n (m - 1) d (fun i l c => isc) end.
Definition jacV (x : list R) : list R := comp4 n (m - 1) m d (fun i l j c => mget l j A) ++ comp4 n (m - 1) m d (fun i l j c => - mget l j B * (len i * scl x)) ++
      match oc_fixed o with Some _ => [] | None => comp3 n (m - 1) d (fun i l c => rsum (map (fun j => - mget l j B * vget (ib i j c) x) (seq 0 m)) * len i) end.

Lemma jac_tri : forall x i l c q, (i < n)%nat -> (l < m - 1)%nat -> (c < d)%nat -> tri jacR jacC (jacV x) (rowno (m - 1) d i l c) q = dF i l c q x.
Proof using K Hn Hd.
  intros x i l c q Hi Hl Hc. unfold jacR, jacC, jacV.
  rewrite tri_app by (rewrite !comp4_len; reflexivity). rewrite tri_app by (rewrite !comp4_len; reflexivity).
  rewrite (collapse4 n (m - 1) m d (fun i l j c => ia i j c) (fun i l j c => mget l j A)) by assumption.
  rewrite (collapse4 n (m - 1) m d (fun i l j c => ib i j c) (fun i l j c => - mget l j B * (len i * scl x))) by assumption.
  unfold dF.
  assert (rsum (map (fun j => if Nat.eqb (ia i j c) q then mget l j A else 0) (seq 0 m)) = rsum (map (fun j => mget l j A * (if Nat.eqb (ia i j c) q then 1 else 0)) (seq 0 m))) as ->.
  { apply rsum_ext. intros j _. destruct (Nat.eqb (ia i j c) q); lra. }
  rewrite (rsum_ext _ (fun j => mget l j B * ((if Nat.eqb (ib i j c) q then 1 else 0) * (len i * scl x) + vget (ib i j c) x * (len i * dscl q)))
     (fun j => (-1) * (if Nat.eqb (ib i j c) q then - mget l j B * (len i * scl x) else 0) + (- (len i * dscl q)) * (- mget l j B * vget (ib i j c) x))) by (intros j _; destruct (Nat.eqb (ib i j c) q); lra).
  rewrite rsum_plus, !rsum_mult_l. unfold dscl. destruct (oc_fixed o).
  - rewrite (tri_zero_row [] [] []) by constructor. lra.
  - rewrite (collapse3 n (m - 1) d (fun i l c => isc)) by assumption. destruct (Nat.eqb isc q); lra.
Qed.

Lemma jac_exact : is_jacobian (num_dec op) (n * ((m - 1) * d)) (con_list o) (fun x => tri jacR jacC (jacV x)).
Proof using K Hn Hd.
  intros x r q L Hr Hq. destruct (rowno_surj (m - 1) d n r Hr) as (i & l & c & Hi & Hl & Hc & ->).
  eapply pderiv_eq; [symmetry; apply jac_tri; assumption|].
  eapply pderiv_ext; [|apply pderiv_F; assumption]. intro y. symmetry. unfold rowno. apply con_list_nth; assumption.
Qed.

Lemma jac_range : Forall (fun r => (r < n * ((m - 1) * d))%nat) jacR /\ Forall (fun q => (q < num_dec op)%nat) jacC.
Proof using K Hn Hd.
  assert (forall (P : nat -> Prop) f, (forall i l j c, (i < n)%nat -> (l < m - 1)%nat -> (j < m)%nat -> (c < d)%nat -> P (f i l j c)) -> Forall P (comp4 n (m - 1) m d f)) as F4.
  { intros P f H. unfold comp4. apply Forall_concat, Forall_map, Forall_forall. intros i Hi. apply in_seq in Hi. apply Forall_concat, Forall_map, Forall_forall. intros l Hl. apply in_seq in Hl.
    apply Forall_concat, Forall_map, Forall_forall. intros j Hj. apply in_seq in Hj. apply Forall_map, Forall_forall. intros c Hc. apply in_seq in Hc. apply H; lia. }
  assert (forall (P : nat -> Prop) f, (forall i l c, (i < n)%nat -> (l < m - 1)%nat -> (c < d)%nat -> P (f i l c)) -> Forall P (comp3 n (m - 1) d f)) as F3.
  { intros P f H. unfold comp3. apply Forall_concat, Forall_map, Forall_forall. intros i Hi. apply in_seq in Hi. apply Forall_concat, Forall_map, Forall_forall. intros l Hl. apply in_seq in Hl.
    apply Forall_map, Forall_forall. intros c Hc. apply in_seq in Hc. apply H; lia. }
  assert (forall i l c, (i < n)%nat -> (l < m - 1)%nat -> (c < d)%nat -> (rowno (m - 1) d i l c < n * ((m - 1) * d))%nat) as HR.
  { intros i l c Hi Hl Hc. unfold rowno. assert (l * d + c < (m - 1) * d)%nat by nia. assert ((i + 1) * ((m - 1) * d) <= n * ((m - 1) * d))%nat by (apply Nat.mul_le_mono_r; lia). lia. }
  assert (isc <= num_dec op)%nat as HI by (unfold num_dec, OcpProofs.isc; fold op; lia).
  split.
  - unfold jacR. apply Forall_app; split; [apply F4; intros; now apply HR|]. apply Forall_app; split; [apply F4; intros; now apply HR|].
    destruct (oc_fixed o); [constructor|]. apply F3. intros; now apply HR.
  - unfold jacC. apply Forall_app; split; [apply F4; intros i l j c Hi _ Hj Hc; pose proof (ia_lt o K Hn Hd i j c Hi Hj Hc); lia|].
    apply Forall_app; split; [apply F4; intros i l j c Hi _ Hj Hc; pose proof (ib_lt o K Hn Hd i j c Hi Hj Hc); lia|].
    destruct (oc_fixed o) eqn:E; [constructor|]. apply F3. intros. destruct (index_scale o K Hn Hd E) as (_ & _ & H2). fold op in H2. lia.
Qed.
Lemma jac_lens : forall x, List.length jacR = List.length jacC /\ List.length (jacV x) = List.length jacR.
Proof using K Hn Hd.
  intro x. unfold jacR, jacC, jacV. rewrite !app_length, !comp4_len. destruct (oc_fixed o); rewrite ?comp3_len; auto.
Qed.
End Jac.
