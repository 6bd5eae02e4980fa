(** Proofs about the condensed problem: values. *)
From Verif Require Import Base RBase TreeModel UtilsModel UtilsProofs UtilsProofs2 CollocModel CollocProofs CollocProofs2 CollocProps
  NlpModel NlpProofs NlpProofs2 MeshModel MeshProofs MeshProps OcpModel OcpProofs OcpProofs2 OcpProofs3 CondModel CondSpec.

Lemma concat_map_flat : forall A B (f : A -> list B) l, concat (map f l) = flat_map f l.
Proof. intros. now rewrite flat_map_concat_map. Qed.

Section Cond.
Variable o : ocp.
Hypothesis K : ocp_ok o.
Hypothesis Hn : (1 <= num_intervals o)%nat.
Hypothesis Hd : (1 <= num_states o)%nat.
Variables (alg : bcon) (nimp : nat).
Hypothesis EA : explicit_algebra o alg nimp.
Let op := oc_op o.
Let m := nspi op.
Let n := num_intervals o.
Let d := num_states o.
Let nvs := num_var_stage op.
Let ns := num_stages op.
Let A := t_A (oc_tr o).
Let B := t_B (oc_tr o).
Let len i := vget i (interval_lengths (oc_mesh o)).
Notation ia := (ia o). Notation ib := (ib o). Notation isc := (isc o). Notation scl := (scl o).
Let con x := con_constraints alg x.
Let nd := num_dec op.

Definition dt (k c : nat) : nat := (offD o + c + k * num_var_stage (oc_op o))%nat.
Lemma ib_dt : forall i j c, ib i j c = dt (i * (m - 1) + j) c.
Proof using. reflexivity. Qed.
Lemma offd_lt : forall c, (c < d)%nat -> (offD o + c < nvs)%nat.
Proof using K Hn Hd. intros c Hc. unfold nvs, op. rewrite (nvs_eq o K Hn Hd). unfold offD. fold op d. unfold d in *. lia. Qed.
Lemma dt_inj : forall k c k' c', (c < d)%nat -> (c' < d)%nat -> dt k c = dt k' c' -> k = k' /\ c = c'.
Proof using K Hn Hd.
  intros k c k' c' Hc Hc' E. unfold dt in E. destruct (mixed_radix nvs (offD o + c) (offD o + c') k k') as [X Y]; [now apply offd_lt|now apply offd_lt|exact E|]. lia.
Qed.
Lemma isc_le : (isc <= nd)%nat.
Proof using K Hn Hd. unfold OcpProofs.isc, nd, num_dec, op. lia. Qed.
Lemma dt_lt_isc : forall k c, (k < ns)%nat -> (c < d)%nat -> (dt k c < isc)%nat.
Proof using K Hn Hd. intros k c Hk Hc. unfold dt. pose proof (offd_lt c Hc). now apply (idx_lt o K Hn Hd). Qed.
Lemma dt_lt : forall k c, (k < ns)%nat -> (c < d)%nat -> (dt k c < nd)%nat.
Proof using K Hn Hd. intros k c Hk Hc. pose proof (dt_lt_isc k c Hk Hc). pose proof isc_le. lia. Qed.
Lemma dot_pos_iff : forall k c j, (k < ns)%nat -> dot_pos o k c j <-> (c < d)%nat /\ j = dt k c.
Proof using K Hn Hd.
  intros k c j Hk. assert (List.length (gnames_of op "states_dot") = d) as L by (exact (gsD o K Hn Hd)). split.
  - intros (nm & E & I). assert (c < d)%nat as Hc by (rewrite <- L; apply nth_error_Some; unfold op; congruence). split; [assumption|].
    rewrite (idx_first o K Hn Hd "states_dot" 2 c nm (sgD o K Hn Hd) ltac:(discriminate) E k Hk) in I. injection I as <-. now rewrite (offD_eq o K Hn Hd).
  - intros [Hc ->]. destruct (nth_error (gnames_of op "states_dot") c) as [nm|] eqn:E; [|apply nth_error_None in E; lia]. exists nm. split; [exact E|].
    rewrite (idx_first o K Hn Hd "states_dot" 2 c nm (sgD o K Hn Hd) ltac:(discriminate) E k Hk). now rewrite (offD_eq o K Hn Hd).
Qed.
Definition dots : list nat := concat (map (fun k => map (dt k) (seq 0 (num_states o))) (seq 0 (num_stages (oc_op o)))).
Lemma idx_eq : group_indices_in_dec op "states_dot" = Ok dots.
Proof using K Hn Hd.
  rewrite (group_in_dec op "states_dot" 2 (oo_dvo o K) (sgD o K Hn Hd)). f_equal. rewrite flat_map_concat_map. unfold dots. f_equal.
  apply map_seq_in. intros k _. rewrite (gsD o K Hn Hd : group_size op "states_dot" = d). apply map_seq_in. intros c _. now rewrite (offD_eq o K Hn Hd : off_of op 2 = _).
Qed.
Definition isdot (j : nat) : Prop := exists k c, (k < num_stages (oc_op o))%nat /\ (c < num_states o)%nat /\ j = dt k c.
Lemma dots_In : forall j, In j dots <-> isdot j.
Proof using K Hn Hd.
  intro j. unfold dots, isdot. rewrite in_concat. split.
  - intros (l & Hl & Hj). apply in_map_iff in Hl. destruct Hl as (k & <- & Hk). apply in_map_iff in Hj. destruct Hj as (c & <- & Hc). apply in_seq in Hk, Hc. exists k, c. repeat split; lia.
  - intros (k & c & Hk & Hc & ->). exists (map (dt k) (seq 0 (num_states o))). split; [apply in_map_iff; exists k; split; [reflexivity|apply in_seq; lia]|apply in_map; apply in_seq; lia].
Qed.
Lemma isdot_dec : forall j, {isdot j} + {~ isdot j}.
Proof using K Hn Hd. intro j. destruct (in_dec Nat.eq_dec j dots) as [H|H]; [left; now apply dots_In|right; intro C; apply H; now apply dots_In]. Qed.
Lemma isdot_lt : forall j, isdot j -> (j < nd)%nat.
Proof using K Hn Hd. intros j (k & c & Hk & Hc & ->). now apply dt_lt. Qed.
Lemma sbd_iff : forall x y, same_but_dots o x y <-> List.length y = List.length x /\ forall j, ~ isdot j -> vget j y = vget j x.
Proof using K Hn Hd.
  intros x y. unfold same_but_dots. split; intros [L H]; (split; [exact L|]); intros j Hj; apply H.
  - intros k c Hk Hp. apply dot_pos_iff in Hp; [|exact Hk]. destruct Hp as [Hc ->]. apply Hj. exists k, c. auto.
  - intros (k & c & Hk & Hc & ->). apply (Hj k c Hk). apply dot_pos_iff; auto.
Qed.

(** a function not affected by derivative variables *)
Definition fillx (y : list R) (idx : list nat) (x : list R) : list R := fold_left (fun z i => upd i (vget i y) z) idx x.
Lemma fillx_len : forall y idx x, List.length (fillx y idx x) = List.length x.
Proof using. intros y idx; induction idx as [|i r IH]; intro x; [reflexivity|]. cbn [fillx fold_left]. change (List.length (fillx y r (upd i (vget i y) x)) = List.length x). now rewrite IH, upd_length. Qed.
Lemma fillx_get : forall y idx x j, (forall i, In i idx -> (i < List.length x)%nat) -> vget j (fillx y idx x) = if existsb (Nat.eqb j) idx then vget j y else vget j x.
Proof using K Hn Hd.
  intros y idx; induction idx as [|i r IH]; intros x j H; [reflexivity|]. change (fillx y (i :: r) x) with (fillx y r (upd i (vget i y) x)).
  rewrite IH by (intros k Hk; rewrite upd_length; apply H; simpl; auto). cbn [existsb]. destruct (Nat.eqb_spec j i) as [->|N].
  - cbn [orb]. destruct (existsb (Nat.eqb i) r); [reflexivity|]. apply vget_upd_same. apply H. simpl; auto.
  - cbn [orb]. destruct (existsb (Nat.eqb j) r); [reflexivity|]. now apply vget_upd_other.
Qed.
Lemma existsb_dots : forall j, existsb (Nat.eqb j) dots = true <-> isdot j.
Proof using K Hn Hd.
  intro j. rewrite <- dots_In, existsb_exists. split; [intros (i & Hi & E); apply Nat.eqb_eq in E; now subst|intro H; exists j; split; [assumption|apply Nat.eqb_refl]].
Qed.
Lemma fill_same : forall x y, List.length x = nd -> same_but_dots o x y -> fillx y dots x = y.
Proof using K Hn Hd.
  intros x y L S. apply sbd_iff in S. destruct S as [Ly Hy]. apply vec_ext; [rewrite fillx_len; congruence|]. intros j.
  rewrite fillx_get by (intros i Hi; rewrite L; apply isdot_lt; now apply dots_In). destruct (existsb (Nat.eqb j) dots) eqn:E; [reflexivity|].
  symmetry. apply Hy. intro C. apply existsb_dots in C. congruence.
Qed.
Definition dotfree (P : list R -> R) : Prop := forall x j v, List.length x = num_dec (oc_op o) -> isdot j -> P (upd j v x) = P x.
Lemma dotfree_same : forall P x y, dotfree P -> List.length x = nd -> same_but_dots o x y -> P y = P x.
Proof using K Hn Hd.
  intros P x y HP L S. rewrite <- (fill_same x y L S). assert (forall i, In i dots -> isdot i) as HI by (intros; now apply dots_In). revert HI. generalize dots as idx. intro idx.
  revert x L S. induction idx as [|i r IH]; intros x L S HI; [reflexivity|]. change (fillx y (i :: r) x) with (fillx y r (upd i (vget i y) x)).
  rewrite IH; [apply HP; [exact L|apply HI; simpl; auto]| |apply sbd_iff; apply sbd_iff in S; destruct S as [Ly Hy]; split; [now rewrite upd_length|]; intros j Hj; rewrite vget_upd_other; [now apply Hy|]|intros; apply HI; simpl; auto].
  - now rewrite upd_length.
  - intros ->. apply Hj. apply HI. simpl; auto.
Qed.

Definition Fv (k c : nat) (x : list R) : R := vget (k * nimp + c) (con_constraints alg x) + vget (dt k c) x.
Lemma Fv_free : forall k c, (k < ns)%nat -> (c < d)%nat -> dotfree (Fv k c).
Proof using K Hn Hd EA.
  intros k c Hk Hc x j v L (k' & c' & Hk' & Hc' & ->). unfold Fv. pose proof (ea_d _ _ _ EA) as Ed. fold d in Ed, Hc'.
  destruct (Nat.eq_dec (k' * nimp + c') (k * nimp + c)) as [E|N].
  - destruct (mixed_radix nimp c' c k' k) as [-> ->]; [lia|lia|lia|].
    rewrite (ea_dot _ _ _ EA x k c (dt k c) v L Hk) by (apply dot_pos_iff; auto). rewrite vget_upd_same by (rewrite L; now apply dt_lt). ring.
  - rewrite (ea_rest _ _ _ EA x k' c' (dt k' c') v) by (auto; apply dot_pos_iff; auto). rewrite vget_upd_other; [reflexivity|].
    intro E. apply dt_inj in E; auto. destruct E as [-> ->]. now apply N.
Qed.
Lemma rest_free : forall k r, (d <= r)%nat -> (r < nimp)%nat -> dotfree (fun x => vget (k * nimp + r) (con x)).
Proof using K Hn Hd EA.
  intros k r Hr Hr' x j v L (k' & c' & Hk' & Hc' & ->). unfold con. fold d in Hc'. rewrite (ea_rest _ _ _ EA x k' c' (dt k' c') v); [reflexivity|auto|auto|apply dot_pos_iff; auto|].
  intro E. destruct (mixed_radix nimp r c' k k') as [X Y]; [lia|lia|lia|]. lia.
Qed.

(** zeroing *)
Lemma zero_at_fill : forall x, zero_at dots x = fillx (repeat 0 nd) dots x.
Proof using K Hn Hd.
  intro x. unfold zero_at, fillx. generalize dots as l. intro l. revert x. induction l as [|i r IH]; intro x; [reflexivity|]. cbn [fold_left].
  assert (vget i (repeat 0 nd) = 0) as -> by (unfold vget; apply nth_repeat). apply IH.
Qed.
Lemma zero_sbd : forall x, List.length x = nd -> same_but_dots o x (zero_at dots x).
Proof using K Hn Hd.
  intros x L. rewrite zero_at_fill. apply sbd_iff. split; [apply fillx_len|]. intros j Hj. rewrite fillx_get by (intros i Hi; rewrite L; apply isdot_lt; now apply dots_In).
  destruct (existsb (Nat.eqb j) dots) eqn:E; [apply existsb_dots in E; contradiction|reflexivity].
Qed.
Lemma zero_dot : forall x j, List.length x = nd -> isdot j -> vget j (zero_at dots x) = 0.
Proof using K Hn Hd.
  intros x j L Hj. rewrite zero_at_fill, fillx_get by (intros i Hi; rewrite L; apply isdot_lt; now apply dots_In). apply existsb_dots in Hj. rewrite Hj. unfold vget. apply nth_repeat.
Qed.

Definition G (i l c : nat) (x : list R) : R :=
  rsum (map (fun j => mget l j (t_A (oc_tr o)) * vget (ia i j c) x) (seq 0 (nspi (oc_op o)))) -
  rsum (map (fun j => mget l j (t_B (oc_tr o)) * (Fv (i * (nspi (oc_op o) - 1) + j) c x * (vget i (interval_lengths (oc_mesh o)) * scl x))) (seq 0 (nspi (oc_op o)))).
Definition restl (x : list R) : list R := concat (map (fun k => map (fun r => vget (k * nimp + (num_states o + r)) (con_constraints alg x)) (seq 0 (nimp - num_states o))) (seq 0 (num_stages (oc_op o)))).
Definition cond_list (x : list R) : list R := comp3 (num_intervals o) (nspi (oc_op o) - 1) (num_states o) (fun i l c => G i l c x) ++ restl x.

Lemma ns_pos : (0 < ns)%nat.
Proof using K Hn Hd. unfold ns. apply num_stages_pos. Qed.
Lemma nimp_pos : (0 < nimp)%nat.
Proof using K Hn Hd EA. pose proof (ea_d _ _ _ EA). lia. Qed.
Lemma by_stage_eq : forall a k, List.length a = (ns * k)%nat -> by_stage o a = Ok (map (fun s => map (fun r => vget (s * k + r) a) (seq 0 k)) (seq 0 ns)).
Proof using K Hn Hd EA.
  intros a k L. pose proof ns_pos. unfold by_stage. fold op ns. rewrite L, (Nat.mul_comm ns k), Nat.mod_mul by lia. cbn [Nat.eqb]. rewrite Nat.div_mul by lia. f_equal.
  rewrite chunks_comp. apply map_seq_in. intros s Hs. assert (s * k + k <= ns * k)%nat by (assert ((s + 1) * k <= ns * k)%nat by (apply Nat.mul_le_mono_r; lia); lia).
  apply (list_eq_nth _ 0); [rewrite firstn_length_le; [now rewrite map_length, seq_length|rewrite skipn_length; lia]|].
  intros r Hr. rewrite firstn_length_le in Hr by (rewrite skipn_length; lia). rewrite nth_comp by assumption.
  change (vget r (firstn k (skipn (s * k) a)) = vget (s * k + r) a). rewrite firstn_vget by assumption. apply skipn_vget.
Qed.

Lemma scl_free : dotfree scl.
Proof using K Hn Hd EA.
  intros x j v L (k & c & Hk & Hc & ->). unfold OcpProofs.scl. destruct (oc_fixed o); [reflexivity|]. apply vget_upd_other. pose proof (dt_lt_isc k c Hk Hc). lia.
Qed.
Lemma ia_not_dot : forall i j c, (i < n)%nat -> (j < m)%nat -> (c < d)%nat -> ~ isdot (ia i j c).
Proof using K Hn Hd EA.
  intros i j c Hi Hj Hc (k & c' & Hk & Hc' & E). fold d in Hc'. unfold OcpProofs.ia, dt, offS in E. fold op m nvs in E.
  destruct (mixed_radix nvs (0 + c) (offD o + c') (i * (m - 1) + j) k) as [X Y]; [pose proof (offd_lt c Hc); lia|now apply offd_lt|exact E|]. unfold offD in X. fold op d in X. lia.
Qed.
Lemma G_free : forall i l c, (i < n)%nat -> (c < d)%nat -> dotfree (G i l c).
Proof using K Hn Hd EA.
  intros i l c Hi Hc x j v L Hj. unfold G. f_equal.
  - f_equal. apply map_seq_in. intros j' Hj'. f_equal. apply vget_upd_other. intros <-. revert Hj. now apply ia_not_dot.
  - f_equal. apply map_seq_in. intros j' Hj'. f_equal. rewrite (Fv_free _ c (stage_lt o K Hn Hd i j' Hi Hj') Hc x j v L Hj). now rewrite (scl_free x j v L Hj).
Qed.
Lemma restl_free : forall x y, List.length x = nd -> same_but_dots o x y -> restl y = restl x.
Proof using K Hn Hd EA.
  intros x y L S. unfold restl. f_equal. apply map_seq_in. intros k Hk. apply map_seq_in. intros r Hr. apply (dotfree_same _ x y (rest_free k (d + r) ltac:(lia) ltac:(fold d in Hr; lia)) L S).
Qed.

Lemma condensed_eq : forall x, List.length x = nd -> condensed_constraints o alg x = Ok (cond_list x).
Proof using K Hn Hd EA.
  intros x L. unfold condensed_constraints. fold op. rewrite (tensorS o K Hn Hd x L : get_interval_tensor op x "states" = _). cbn [bind].
  rewrite idx_eq. cbn [bind]. set (z := zero_at dots x). pose proof (zero_sbd x L) as Sz. fold z in Sz. assert (List.length z = nd) as Lz by (apply sbd_iff in Sz; destruct Sz; congruence).
  rewrite (by_stage_eq _ nimp) by (now apply (ea_len _ _ _ EA)). cbn [bind].
  rewrite (scale_ok o K Hn Hd x L). cbn [bind]. fold d. rewrite !map_map.
  pose proof (ea_d _ _ _ EA) as Ed. fold d in Ed.
  assert (map (fun s => firstn d (map (fun r => vget (s * nimp + r) (con_constraints alg z)) (seq 0 nimp))) (seq 0 ns) = map (fun k => map (fun c => Fv k c x) (seq 0 d)) (seq 0 ns)) as ->.
  { apply map_seq_in. intros k Hk. pose proof (firstn_skipn_seq R (fun r => vget (k * nimp + r) (con_constraints alg z)) nimp 0 d ltac:(lia)) as X. cbn [skipn] in X. rewrite X. apply map_seq_in. intros c Hc.
    rewrite <- (dotfree_same _ x z (Fv_free k c Hk Hc) L Sz). unfold Fv. cbn [Nat.add]. unfold z at 3. rewrite zero_dot; [ring|exact L|]. exists k, c. auto. }
  pose proof (m2 o K Hn Hd) as M2. fold op m in M2.
  rewrite (conv_ok _ _ (nspi op) (nspi op - 1) (nintervals op - 1)); [|fold m; lia|fold m; lia|rewrite map_length, seq_length; unfold ns, num_stages; unfold num_intervals in Hn; fold op in Hn; fold m; nia].
  cbn [bind rows]. unfold windows. replace (S (nintervals op - 1)) with n by (unfold n, num_intervals; fold op; unfold num_intervals in Hn; fold op in Hn; lia).
  assert (map (fun b => firstn (nspi op) (skipn (b * (nspi op - 1)) (map (fun k => map (fun c => Fv k c x) (seq 0 d)) (seq 0 ns)))) (seq 0 n) =
          map (fun i => map (fun j => map (fun c => Fv (i * (m - 1) + j) c x) (seq 0 d)) (seq 0 m)) (seq 0 n)) as ->.
  { apply map_seq_in. intros i Hi. fold m. apply (firstn_skipn_seq _ (fun k => map (fun c => Fv k c x) (seq 0 d))). pose proof (stage_lt o K Hn Hd i (m - 1) Hi ltac:(fold op m; lia)) as SL. fold op m ns in SL. lia. }
  unfold phys_lengths. rewrite (lens_comp o K Hn Hd). fold n. rewrite !map_length, !seq_length, Nat.eqb_refl. cbn [negb].
  f_equal. unfold cond_list. f_equal.
  - unfold comp3. rewrite map_map. fold n d A B op m. rewrite !map2_comp. rewrite map_map. f_equal. apply map_seq_in. intros i Hi. f_equal.
    destruct (A_shape o K Hn Hd) as [LA FA]. destruct (B_shape o K Hn Hd) as [LB FB]. fold op m A in LA, FA. fold op m B in LB, FB.
    rewrite mscale_comp, !mmul_comp by assumption. rewrite LA, LB, msub_comp. reflexivity.
  - unfold restl. f_equal. fold op ns. apply map_seq_in. intros k Hk. fold d.
    pose proof (firstn_skipn_seq R (fun r => vget (k * nimp + r) (con_constraints alg z)) nimp d (nimp - d) ltac:(lia)) as X.
    rewrite firstn_all2 in X by (rewrite skipn_length, map_length, seq_length; lia). rewrite X. apply map_seq_in. intros r Hr.
    symmetry. symmetry. exact (dotfree_same _ x z (rest_free k (d + r) ltac:(lia) ltac:(lia)) L Sz).
Qed.

(** the point with the model's derivatives *)
Definition solved (x : list R) : list R :=
  map (fun j => if existsb (Nat.eqb j) dots then Fv (j / num_var_stage (oc_op o)) (j mod num_var_stage (oc_op o) - offD o) x else vget j x) (seq 0 (num_dec (oc_op o))).
Lemma solved_len : forall x, List.length (solved x) = nd.
Proof using K Hn Hd EA. intro x. unfold solved. now rewrite map_length, seq_length. Qed.
Lemma solved_dot : forall x k c, (k < ns)%nat -> (c < d)%nat -> vget (dt k c) (solved x) = Fv k c x.
Proof using K Hn Hd EA.
  intros x k c Hk Hc. unfold vget, solved. rewrite nth_comp by (now apply dt_lt). assert (isdot (dt k c)) as H by (exists k, c; auto). apply existsb_dots in H. rewrite H.
  pose proof (offd_lt c Hc) as Ho. unfold nvs in Ho. unfold dt. fold op. rewrite Nat.div_add, Nat.mod_add by lia. rewrite Nat.div_small, Nat.mod_small by exact Ho. f_equal; lia.
Qed.
Lemma solved_sbd : forall x, List.length x = nd -> same_but_dots o x (solved x).
Proof using K Hn Hd EA.
  intros x L. apply sbd_iff. split; [now rewrite solved_len|]. intros j Hj. destruct (Nat.lt_ge_cases j nd) as [Hl|Hg].
  - unfold vget, solved. rewrite nth_comp by exact Hl. destruct (existsb (Nat.eqb j) dots) eqn:E; [apply existsb_dots in E; contradiction|reflexivity].
  - unfold vget. rewrite !nth_overflow; [reflexivity|lia|rewrite solved_len; lia].
Qed.
Lemma solved_zero : forall x k c, List.length x = nd -> (k < ns)%nat -> (c < d)%nat -> vget (k * nimp + c) (con (solved x)) = 0.
Proof using K Hn Hd EA.
  intros x k c L Hk Hc. pose proof (dotfree_same _ x (solved x) (Fv_free k c Hk Hc) L (solved_sbd x L)) as E. unfold Fv at 1 in E. rewrite (solved_dot x k c Hk Hc) in E. unfold con. lra.
Qed.
Lemma solved_unique : forall x y, List.length x = nd -> same_but_dots o x y -> (forall k c, (k < ns)%nat -> (c < d)%nat -> vget (k * nimp + c) (con y) = 0) -> y = solved x.
Proof using K Hn Hd EA.
  intros x y L S Z. pose proof (proj1 (sbd_iff _ _) S) as [Ly Hy]. apply vec_ext; [rewrite solved_len; congruence|]. intros j _. destruct (isdot_dec j) as [(k & c & Hk & Hc & ->)|N].
  - rewrite (solved_dot x k c Hk Hc). rewrite <- (dotfree_same _ x y (Fv_free k c Hk Hc) L S). unfold Fv. specialize (Z k c Hk Hc). unfold con in Z. rewrite Z. ring.
  - rewrite Hy by assumption. symmetry. now apply (proj1 (sbd_iff _ _) (solved_sbd x L)).
Qed.
Lemma G_solved : forall x i l c, List.length x = nd -> (i < n)%nat -> (c < d)%nat -> G i l c x = Fdef o i l c (solved x).
Proof using K Hn Hd EA.
  intros x i l c L Hi Hc. pose proof (solved_sbd x L) as S. unfold G, Fdef. f_equal; [|f_equal].
  - f_equal. apply map_seq_in. intros j Hj. f_equal. symmetry. apply (proj1 (sbd_iff _ _) S). now apply ia_not_dot.
  - apply map_seq_in. intros j Hj. f_equal. rewrite ib_dt. fold op m. rewrite (solved_dot x (i * (m - 1) + j) c (stage_lt o K Hn Hd i j Hi Hj) Hc). f_equal. f_equal.
    symmetry. exact (dotfree_same _ x _ scl_free L S).
Qed.
Lemma cond_solved : forall x, List.length x = nd -> cond_list x = con_list o (solved x) ++ restl (solved x).
Proof using K Hn Hd EA.
  intros x L. unfold cond_list. f_equal.
  - unfold comp3, con_list. f_equal. apply map_seq_in. intros i Hi. f_equal. apply map_seq_in. intros l Hl. apply map_seq_in. intros c Hc. now apply G_solved.
  - symmetry. apply restl_free; [assumption|now apply solved_sbd].
Qed.
End Cond.
