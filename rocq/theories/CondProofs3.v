(** Proofs about the condensed problem: the hessian. *)
From Verif Require Import Base RBase TreeModel UtilsModel UtilsProofs UtilsProofs2 CollocModel CollocProofs CollocProofs2 CollocProps
  NlpModel NlpProofs NlpProofs2 MeshModel MeshProofs MeshProps OcpModel OcpProofs OcpProofs2 OcpProofs3 OcpSpec OcpProps ConvProps CondModel CondSpec CondProofs CondProofs2.

(** ** Scattering interval values on stages *)
Fixpoint ws (g : nat -> list R) (W : list (list R)) (off : nat) : R := match W with [] => 0 | r :: W' => vdot r (g off) + ws g W' (S off) end.
Fixpoint bs (g : nat -> list R) (k : nat) (l : list (list (list R))) (off : nat) : R := match l with [] => 0 | a :: r => ws g a off + bs g k r (off + k) end.
Definition stk (l : list (list (list R))) : list (list R) := hd [] (hd [] (add_shared l)) :: concat (map (@tl _) (add_shared l)).
Lemma ws_app : forall g A B off, ws g (A ++ B) off = ws g A off + ws g B (off + List.length A).
Proof. intros g A; induction A as [|r A IH]; intros B off; cbn [app ws List.length]; [rewrite Nat.add_0_r; ring|]. rewrite IH. replace (S off + List.length A)%nat with (off + S (List.length A))%nat by lia. ring. Qed.
Lemma vdot_vadd : forall a b c, List.length a = List.length b -> vdot (vadd a b) c = vdot a c + vdot b c.
Proof.
  unfold vdot, vadd, vmul. intros a; induction a as [|x a IH]; intros [|y b] c L; simpl in *; try discriminate; [lra|]. destruct c as [|z c]; cbn [map2 rsum]; [lra|]. rewrite (IH b c) by lia. ring.
Qed.
Definition block (m d : nat) (a : list (list R)) : Prop := List.length a = m /\ Forall (fun r => List.length r = d) a.
Lemma last_cat : forall A (a : list A) z, a <> [] -> a = removelast a ++ [last a z].
Proof. intros. now apply app_removelast_last. Qed.
Lemma removelast_len : forall A (a : list A), List.length (removelast a) = (List.length a - 1)%nat.
Proof. intros A a; induction a as [|x [|y a] IH]; [reflexivity|reflexivity|]. cbn [removelast List.length] in *. rewrite IH. lia. Qed.

Lemma hd_shared : forall m d l, (2 <= m)%nat -> l <> [] -> Forall (block m d) l -> hd [] (hd [] (add_shared l)) = hd [] (hd [] l).
Proof.
  intros m d l Hm Hl F. destruct l as [|a [|b r]]; [reflexivity|reflexivity|]. cbn [add_shared hd]. inversion F as [|? ? [La _] _]; subst. destruct a as [|x [|y a]]; cbn [List.length] in *; try lia. reflexivity.
Qed.
Lemma stk_cons : forall m d a b r, (2 <= m)%nat -> Forall (block m d) (a :: b :: r) ->
  stk (a :: b :: r) = removelast a ++ vadd (last a []) (hd [] b) :: tl (stk (b :: r)) /\ stk (b :: r) = hd [] b :: tl (stk (b :: r)).
Proof.
  intros m d a b r Hm F. inversion F as [|? ? [La Fa] F1]; subst. split.
  - unfold stk. cbn [tl]. change (add_shared (a :: b :: r)) with ((removelast a ++ [vadd (last a []) (hd [] b)]) :: add_shared (b :: r)). cbn [hd map concat].
    destruct a as [|x [|y a]]; cbn [List.length] in *; try lia. cbn [removelast]. destruct a; cbn [app hd tl removelast]; [reflexivity|]. f_equal. f_equal. now rewrite <- app_assoc.
  - unfold stk. cbn [tl]. rewrite (hd_shared _ d (b :: r) Hm) by (auto; discriminate). reflexivity.
Qed.
Lemma stk_block : forall m d l, (2 <= m)%nat -> l <> [] -> Forall (block m d) l -> block (List.length l * (m - 1) + 1) d (stk l).
Proof.
  intros m d l Hm. induction l as [|a l IH]; intros Hl F; [congruence|]. destruct l as [|b r].
  - inversion F as [|? ? [La Fa] _]; subst. unfold stk. cbn [add_shared hd map concat]. rewrite app_nil_r. destruct a as [|x a]; cbn [List.length] in *; [lia|]. cbn [hd tl]. split; [cbn [List.length]; lia|exact Fa].
  - destruct (stk_cons m d a b r Hm F) as [E1 E2]. inversion F as [|? ? [La Fa] F1]; subst. destruct (IH ltac:(discriminate) F1) as [L2 F2]. rewrite E2 in F2. cbn [List.length] in L2. rewrite E2 in L2. cbn [List.length] in L2.
    inversion F1 as [|? ? [Lb Fb] _]; subst. inversion F2; subst. rewrite E1. split.
    + rewrite app_length. cbn [List.length]. rewrite removelast_len. nia.
    + assert (a <> []) as Na by (destruct a; [cbn in *; lia|discriminate]). pose proof (last_cat _ a [] Na) as Ea. rewrite Ea in Fa. apply Forall_app in Fa. destruct Fa as [Fa1 Fa2]. inversion Fa2; subst.
      apply Forall_app. split; [assumption|]. constructor; [|assumption]. unfold vadd. rewrite map2_length; [assumption|]. congruence.
Qed.
Lemma scatter : forall m d g l off, (2 <= m)%nat -> l <> [] -> Forall (block m d) l -> ws g (stk l) off = bs g (m - 1) l off.
Proof.
  intros m d g l. induction l as [|a l IH]; intros off Hm Hl F; [congruence|]. destruct l as [|b r].
  - inversion F as [|? ? [La Fa] _]; subst. unfold stk. cbn [add_shared hd map concat bs]. rewrite app_nil_r. destruct a as [|x a]; cbn [List.length] in *; [lia|]. cbn [hd tl]. ring.
  - destruct (stk_cons m d a b r Hm F) as [E1 E2]. inversion F as [|? ? [La Fa] F1]; subst. cbn [bs]. change (ws g b (off + (List.length a - 1)) + bs g (List.length a - 1) r (off + (List.length a - 1) + (List.length a - 1))) with (bs g (List.length a - 1) (b :: r) (off + (List.length a - 1))).
    rewrite <- (IH (off + (List.length a - 1))%nat Hm) by (auto; discriminate). rewrite E1, E2. cbn [tl].
    assert (a <> []) as Na by (destruct a; [cbn in *; lia|discriminate]). pose proof (last_cat _ a [] Na) as Ea.
    inversion F1 as [|? ? [Lb Fb] _]; subst. assert (List.length (last a []) = List.length (hd [] b)) as LL.
    { rewrite Ea in Fa. apply Forall_app in Fa. destruct Fa as [_ Fa2]. inversion Fa2; subst. destruct b; [cbn in *; lia|]. inversion Fb; subst. cbn [hd]. congruence. }
    rewrite ws_app. cbn [ws]. rewrite removelast_len. rewrite vdot_vadd by assumption. assert (ws g a off = ws g (removelast a) off + vdot (last a []) (g (off + (List.length a - 1))%nat)) as -> by (rewrite Ea at 1; rewrite ws_app, removelast_len; cbn [ws]; ring). ring.
Qed.
Lemma ws_comp : forall g W off, ws g W off = rsum (map (fun t => vdot (nth t W []) (g (off + t)%nat)) (seq 0 (List.length W))).
Proof.
  intros g W; induction W as [|r W IH]; intro off; [reflexivity|]. cbn [ws List.length seq map]. cbn [rsum]. cbn [nth]. rewrite Nat.add_0_r. f_equal.
  rewrite IH, <- seq_shift, map_map. apply rsum_ext. intros t _. cbn [nth]. f_equal. f_equal. lia.
Qed.
Lemma bs_comp : forall g k (F : nat -> list (list R)) n off, bs g k (map F (seq 0 n)) off = rsum (map (fun i => ws g (F i) (off + i * k)) (seq 0 n)).
Proof.
  intros g k F n; revert F. induction n as [|n IH]; intros F off; [reflexivity|]. cbn [seq map bs]. cbn [rsum]. rewrite Nat.mul_0_l, Nat.add_0_r. f_equal. rewrite <- seq_shift, !map_map. rewrite (IH (fun i => F (S i))).
  apply rsum_ext. intros i _. f_equal. lia.
Qed.

(** ** Hessian calculus *)
Lemma hess_coord : forall P n i, is_hessian_on P n (vget i) (fun _ _ _ => 0).
Proof.
  intros P n i. exists (fun _ q => if Nat.eqb i q then 1 else 0). split; [intros x j L Hj; apply pderiv_coord; lia|]. intros. apply pderiv_const.
Qed.
Lemma hess_on_unique : forall P n f H H', is_hessian_on P n f H -> is_hessian_on P n f H' -> forall x j k, List.length x = n -> (j < n)%nat -> (k < n)%nat -> P j k -> H x j k = H' x j k.
Proof.
  intros P n f H H' (g & G1 & G2) (g' & G1' & G2') x j k L Hj Hk HP. eapply pderiv_unique; [apply G2; eassumption|]. eapply pderiv_ext_len; [|apply G2'; eassumption].
  intros y Ly. cbv beta. eapply (pderiv_gradient_unique n f); eauto. congruence.
Qed.
Lemma hess_on_weaken : forall (P Q : nat -> nat -> Prop) n f H, (forall i j, Q i j -> P i j) -> is_hessian_on P n f H -> is_hessian_on Q n f H.
Proof. intros P Q n f H I (g & A & B). exists g. split; [assumption|]. intros; apply B; auto. Qed.
Lemma hess_on_lin : forall X P n (F : X -> list R -> R) (l : list X), (forall a, In a l -> is_hessian_on P n (F a) (fun _ _ _ => 0)) -> is_hessian_on P n (fun x => rsum (map (fun a => F a x) l)) (fun _ _ _ => 0).
Proof.
  intros X P n F l H. eapply hess_on_ext; [reflexivity| |apply (hess_on_sum X P n F (fun _ _ _ _ => 0) l H)]. intros. cbv beta. apply rsum_zero, Forall_map, Forall_forall. reflexivity.
Qed.
Lemma hess_on_scal0 : forall P n k f, is_hessian_on P n f (fun _ _ _ => 0) -> is_hessian_on P n (fun x => k * f x) (fun _ _ _ => 0).
Proof. intros P n k f H. eapply hess_on_ext; [reflexivity| |apply (hess_on_scal P n k f _ H)]. intros. cbv beta. ring. Qed.
Lemma hess_prod : forall n (s U : list R -> R) (ds : nat -> R) g H, (forall x q, List.length x = n -> (q < n)%nat -> pderiv s x q (ds q)) -> is_gradient n U g ->
  is_hessian_on (fun _ _ => True) n U H -> is_hessian_on (fun _ _ => True) n (fun x => s x * U x) (fun x p q => ds p * g x q + ds q * g x p + s x * H x p q).
Proof.
  intros n s U ds g H Hs Hg (g' & G1 & G2). exists (fun x p => ds p * U x + s x * g x p). split.
  - intros x q L Hq. apply (pderiv_mult s U); auto.
  - intros x p q L Hp Hq _. eapply pderiv_eq; [|apply (pderiv_plus (fun y => ds p * U y) (fun y => s y * g y p)); [apply pderiv_scal; apply Hg; assumption|apply (pderiv_mult s (fun y => g y p)); [apply Hs; assumption|]]].
    2: { eapply pderiv_ext_len; [|apply (G2 x p q L Hp Hq I)]. intros y Ly. cbv beta. eapply (pderiv_gradient_unique n U); eauto. congruence. }
    ring.
Qed.

Definition sum3 (a b c : nat) (f : nat -> nat -> nat -> R) : R := rsum (map (fun i => rsum (map (fun j => rsum (map (fun k => f i j k) (seq 0 c))) (seq 0 b))) (seq 0 a)).
Definition sum2 (a b : nat) (f : nat -> nat -> R) : R := rsum (map (fun i => rsum (map (fun j => f i j) (seq 0 b))) (seq 0 a)).
Lemma sum3_ext : forall a b c f g, (forall i j k, (i < a)%nat -> (j < b)%nat -> (k < c)%nat -> f i j k = g i j k) -> sum3 a b c f = sum3 a b c g.
Proof. intros a b c f g H. unfold sum3. apply rsum_ext. intros i Hi. apply rsum_ext. intros j Hj. apply rsum_ext. intros k Hk. apply in_seq in Hi, Hj, Hk. apply H; lia. Qed.
Lemma sum2_ext : forall a b f g, (forall i j, (i < a)%nat -> (j < b)%nat -> f i j = g i j) -> sum2 a b f = sum2 a b g.
Proof. intros a b f g H. unfold sum2. apply rsum_ext. intros i Hi. apply rsum_ext. intros j Hj. apply in_seq in Hi, Hj. apply H; lia. Qed.
Lemma sum3_scal : forall a b c s f, sum3 a b c (fun i j k => s * f i j k) = s * sum3 a b c f.
Proof.
  intros. unfold sum3. rewrite <- rsum_mult_l. apply rsum_ext. intros i _. rewrite <- rsum_mult_l. apply rsum_ext. intros j _. rewrite <- rsum_mult_l. reflexivity.
Qed.
Lemma sum3_plus : forall a b c f g, sum3 a b c (fun i j k => f i j k + g i j k) = sum3 a b c f + sum3 a b c g.
Proof.
  intros. unfold sum3. rewrite <- rsum_plus. apply rsum_ext. intros i _. rewrite <- rsum_plus. apply rsum_ext. intros j _. now rewrite <- rsum_plus.
Qed.
Lemma sum3_zero : forall a b c f, (forall i j k, (i < a)%nat -> (j < b)%nat -> (k < c)%nat -> f i j k = 0) -> sum3 a b c f = 0.
Proof. intros a b c f H. unfold sum3. apply rsum_zero_seq. intros. apply rsum_zero_seq. intros. apply rsum_zero_seq. intros. now apply H. Qed.


Section Cond.
Variable o : ocp.
Hypothesis K : ocp_ok o.
Hypothesis Hn : (1 <= num_intervals o)%nat.
Hypothesis Hd : (1 <= num_states o)%nat.
Variables (alg : bcon) (nimp : nat).
Hypothesis EA : explicit_algebra o alg nimp.
Hypothesis XA : exact_algebra o alg.
Let op := oc_op o.
Let m := nspi op.
Let n := num_intervals o.
Let d := num_states o.
Let ns := num_stages op.
Let A := t_A (oc_tr o).
Let B := t_B (oc_tr o).
Let len i := vget i (interval_lengths (oc_mesh o)).
Notation ia := (ia o). Notation ib := (ib o). Notation isc := (isc o). Notation scl := (scl o).
Notation dt := (dt o). Notation Fv := (Fv o alg nimp). Notation isdot := (isdot o). Notation dots := (dots o). Notation G := (G o alg nimp). Notation dFv := (dFv o alg nimp).
Notation J := (alg_jac alg).
Let con x := con_constraints alg x.
Let nd := num_dec op.
Let ncc := (n * ((m - 1) * d))%nat.
Let XJ : is_jacobian (num_dec (oc_op o)) (c_ncon alg) (con_constraints alg) (alg_jac alg) := xa_jac o alg XA.

(** multiplier of stage value j of interval i, state c, per unit of mesh scale *)
Definition uu (lam : list R) (i j c : nat) : R :=
  rsum (map (fun l => - mget l j (t_B (oc_tr o)) * (vget (rowno (nspi (oc_op o) - 1) (num_states o) i l c) lam * vget i (interval_lengths (oc_mesh o)))) (seq 0 (nspi (oc_op o) - 1))).
(** the right hand side that the equivalent multipliers must give against any vector of algebra values *)
Definition pairing (s : R) (lam v : list R) : R :=
  s * sum3 (num_intervals o) (nspi (oc_op o)) (num_states o) (fun i j c => uu lam i j c * vget ((i * (nspi (oc_op o) - 1) + j) * nimp + c) v) +
  sum2 (num_stages (oc_op o)) (nimp - num_states o) (fun k r => vget (num_intervals o * ((nspi (oc_op o) - 1) * num_states o) + (k * (nimp - num_states o) + r)) lam * vget (k * nimp + (num_states o + r)) v).

Lemma vdot_rows : forall a v, List.length a = (ns * nimp)%nat -> List.length v = (ns * nimp)%nat ->
  vdot a v = sum2 ns d (fun k c => vget (k * nimp + c) a * vget (k * nimp + c) v) + sum2 ns (nimp - d) (fun k r => vget (k * nimp + (d + r)) a * vget (k * nimp + (d + r)) v).
Proof using K Hn Hd EA. clear XJ XA.
  intros a v La Lv. pose proof (ea_d _ _ _ EA) as Ed. fold d in Ed.
  rewrite (list_comp _ v 0) at 1. rewrite Lv. change (map (fun i => nth i v 0) (seq 0 (ns * nimp))) with (map (fun i => vget i v) (seq 0 (ns * nimp))). rewrite vdot_comp by assumption.
  rewrite seq_blocks, concat_map, map_map, rsum_concat, map_map. unfold sum2. rewrite <- rsum_plus. apply rsum_ext. intros k _. rewrite map_map.
  replace (seq 0 nimp) with (seq 0 (d + (nimp - d))) by (f_equal; lia). rewrite seq_app, map_app, rsum_app. f_equal. cbn [Nat.add].
  rewrite <- (Nat.add_0_r d) at 1. generalize 0%nat as t. induction (nimp - d)%nat as [|z IH]; intro t; [reflexivity|]. cbn [seq map rsum]. f_equal. replace (S (d + t)) with (d + S t)%nat by lia. apply IH.
Qed.

Lemma concat_rows_get : forall (W : list (list R)) (ar : list (list R)) k c, List.length W = ns -> List.length ar = ns -> Forall (fun r => List.length r = d) W -> Forall (fun r => List.length r = (nimp - d)%nat) ar -> (d <= nimp)%nat ->
  (k < ns)%nat -> (c < nimp)%nat -> vget (k * nimp + c) (concat (map2 (@app R) W ar)) = if Nat.ltb c d then vget c (nth k W []) else vget (c - d) (nth k ar []).
Proof using K Hn Hd EA. clear XJ XA.
  intros W ar k c LW La FW Fa Ed Hk Hc. unfold vget. rewrite Forall_forall in FW, Fa. rewrite (nth_concat_const _ nimp); [|apply Forall_forall|rewrite map2_length; congruence|assumption].
  - rewrite (map2_nth _ _ _ _ _ _ _ [] [] []) by congruence. assert (List.length (nth k W []) = d) as Lk by (apply FW, nth_In; lia). destruct (Nat.ltb_spec c d).
    + rewrite app_nth1; [reflexivity|lia].
    + rewrite app_nth2 by lia. now rewrite Lk.
  - intros r Hr. apply (In_nth _ _ []) in Hr. destruct Hr as (i & Hi & <-). rewrite map2_length in Hi by congruence. rewrite (map2_nth _ _ _ _ _ _ _ [] [] []) by congruence. rewrite app_length. rewrite (FW (nth i W [])) by (apply nth_In; lia). rewrite (Fa (nth i ar [])) by (apply nth_In; lia). lia.
Qed.

Lemma mults_ok : forall x lam, List.length x = nd -> List.length lam = num_condensed o nimp -> exists leq, equivalent_multipliers o x lam = Ok leq /\ List.length leq = (ns * nimp)%nat /\
  forall v, List.length v = (ns * nimp)%nat -> vdot leq v = pairing (scl x) lam v.
Proof using K Hn Hd EA. clear XJ XA.
  intros x lam Lx Ll. pose proof (ea_d _ _ _ EA) as Ed. fold d in Ed. pose proof (m2 o K Hn Hd) as M2. fold op m in M2.
  assert (num_condensed o nimp = (ncc + ns * (nimp - d))%nat) as NC by (unfold num_condensed, ncc; fold op m n d ns; lia).
  assert ((n * (m - 1) * d)%nat = ncc) as NC2 by (unfold ncc; lia).
  unfold equivalent_multipliers. fold op m n d. rewrite (scale_ok o K Hn Hd x Lx). cbn [bind]. rewrite NC2.
  assert (List.length (firstn ncc lam) = ncc) as Lc by (rewrite firstn_length_le; [reflexivity|lia]). rewrite Lc, Nat.eqb_refl. cbn [negb].
  unfold phys_lengths. rewrite (lens_comp o K Hn Hd), !map_length, seq_length. fold n. rewrite Nat.eqb_refl. cbn [negb].
  set (conv0 := map2 mscale _ _).
  assert (conv0 = map (fun i => map (fun j => map (fun c => scl x * uu lam i j c) (seq 0 d)) (seq 0 m)) (seq 0 n)) as EC.
  { unfold conv0. rewrite (chunks_comp n), !map_map. rewrite map2_comp. apply map_seq_in. intros i Hi.
    destruct (B_shape o K Hn Hd) as [LB FB]. fold op m B in LB, FB. fold B.
    assert (i * ((m - 1) * d) + (m - 1) * d <= ncc)%nat as Hb by (unfold ncc; assert ((i + 1) * ((m - 1) * d) <= n * ((m - 1) * d))%nat by (apply Nat.mul_le_mono_r; lia); lia).
    assert (chunks (m - 1) d (firstn ((m - 1) * d) (skipn (i * ((m - 1) * d)) (firstn ncc lam))) =
            map (fun l => map (fun c => vget (rowno (m - 1) d i l c) lam) (seq 0 d)) (seq 0 (m - 1))) as ->.
    { rewrite chunks_comp. apply map_seq_in. intros l Hl.
      assert (l * d + d <= (m - 1) * d)%nat as Hb2 by (assert ((l + 1) * d <= (m - 1) * d)%nat by (apply Nat.mul_le_mono_r; lia); lia).
      apply (list_eq_nth _ 0).
      - rewrite firstn_length_le; [now rewrite map_length, seq_length|]. rewrite skipn_length, firstn_length_le; [lia|rewrite skipn_length; lia].
      - intros c Hc. rewrite firstn_length_le in Hc; [|rewrite skipn_length, firstn_length_le; [lia|rewrite skipn_length; lia]].
        rewrite nth_comp by assumption.
        match goal with |- nth c ?X 0 = _ => change (nth c X 0) with (vget c X) end.
        rewrite firstn_vget by lia. rewrite skipn_vget, firstn_vget by lia. rewrite skipn_vget, firstn_vget by lia. unfold rowno. now rewrite Nat.add_assoc. }
    rewrite mmul_comp.
    - rewrite mtrans_comp, map_length, seq_length. rewrite mscale_comp. apply map_seq_in. intros j Hj. apply map_seq_in. intros c Hc. unfold uu. fold op m d B. fold (len i).
      rewrite Rmult_comm, <- !rsum_mult_l. unfold mopp at 2. rewrite map_length, LB. f_equal. apply map_seq_in. intros l Hl. unfold mget at 1. rewrite nth_comp by assumption. unfold vget at 1. rewrite nth_comp by assumption.
      rewrite mopp_get. fold (len i). ring.
    - rewrite mtrans_comp. apply Forall_map, Forall_forall. intros j _. unfold mopp. rewrite !map_length, seq_length. exact LB. }
  assert (Forall (block m d) conv0) as FB.
  { rewrite EC. apply Forall_map, Forall_forall. intros i _. split; [now rewrite map_length, seq_length|]. apply Forall_map, Forall_forall. intros j _. now rewrite map_length, seq_length. }
  assert (conv0 <> []) as NE by (rewrite EC; intro E; apply (f_equal (@List.length _)) in E; rewrite map_length, seq_length in E; cbn in E; unfold n in E; lia).
  assert (List.length conv0 = n) as LC by (rewrite EC; now rewrite map_length, seq_length).
  change (hd [] (hd [] (add_shared conv0)) :: concat (map (@tl _) (add_shared conv0))) with (stk conv0).
  destruct (stk_block m d conv0 M2 NE FB) as [LS FS]. change (@List.length (list (list R)) conv0) with (@List.length mat conv0) in LS. rewrite LC in LS.
  assert (List.length (skipn ncc lam) = (ns * (nimp - d))%nat) as Lr by (rewrite skipn_length, Ll, NC, Nat.add_comm, Nat.add_sub; reflexivity).
  rewrite (by_stage_eq o K Hn Hd alg nimp EA _ (nimp - d) Lr). cbn [bind].
  assert (ns = (n * (m - 1) + 1)%nat) as ENS by (exact (nsS o K Hn Hd)).
  rewrite map_length, seq_length. fold op ns. rewrite LS, <- ENS, Nat.eqb_refl. cbn [negb].
  set (ar := map (fun s => _) (seq 0 ns)). assert (List.length ar = ns) as Lar by (unfold ar; now rewrite map_length, seq_length).
  assert (Forall (fun r => List.length r = (nimp - d)%nat) ar) as Far by (unfold ar; apply Forall_map, Forall_forall; intros; now rewrite map_length, seq_length).
  rewrite <- ENS in LS.
  assert (List.length (concat (map2 (@app R) (stk conv0) ar)) = (ns * nimp)%nat) as LQ.
  { rewrite (length_concat_k _ nimp); [rewrite map2_length by congruence; now rewrite LS|]. apply Forall_forall. rewrite Forall_forall in FS, Far.
    intros r Hr. apply (In_nth _ _ []) in Hr. destruct Hr as (i & Hi & <-). rewrite map2_length in Hi by congruence. rewrite (map2_nth _ _ _ _ _ _ _ [] [] []) by congruence. rewrite app_length. rewrite (FS (nth i (stk conv0) [])) by (apply nth_In; lia). rewrite (Far (nth i ar [])) by (apply nth_In; lia). lia. }
  eexists. split; [reflexivity|]. split; [exact LQ|].
  intros v Lv. rewrite vdot_rows by assumption. unfold pairing. fold op m n d ns. f_equal.
  - transitivity (ws (fun k => map (fun c => vget (k * nimp + c) v) (seq 0 d)) (stk conv0) 0).
    + rewrite ws_comp, LS. unfold sum2. apply rsum_ext. intros k Hk. apply in_seq in Hk. cbn [Nat.add].
      rewrite Forall_forall in FS. rewrite vdot_comp by (apply FS, nth_In; lia). apply rsum_ext. intros c Hc. apply in_seq in Hc. f_equal.
      rewrite (concat_rows_get (stk conv0) ar k c) by (auto; try lia; now apply Forall_forall). replace (Nat.ltb c d) with true by (symmetry; apply Nat.ltb_lt; lia). reflexivity.
    + rewrite (scatter m d _ conv0 0 M2 NE FB), EC, bs_comp. rewrite <- sum3_scal. unfold sum3. apply rsum_ext. intros i Hi. rewrite ws_comp, map_length, seq_length. apply rsum_ext. intros j Hj. apply in_seq in Hj.
      rewrite nth_comp by lia. rewrite vdot_comp by (now rewrite map_length, seq_length). apply rsum_ext. intros c Hc. apply in_seq in Hc. unfold vget at 1. rewrite nth_comp by lia. cbn [Nat.add]. ring.
  - apply sum2_ext. intros k r Hk Hr. f_equal. rewrite (concat_rows_get (stk conv0) ar k (d + r)) by (auto; lia). replace (Nat.ltb (d + r) d) with false by (symmetry; apply Nat.ltb_ge; lia).
    unfold ar. rewrite nth_comp by assumption. replace (d + r - d)%nat with r by lia. unfold vget at 1. rewrite nth_comp by assumption. apply skipn_vget.
Qed.
End Cond.
