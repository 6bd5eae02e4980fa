(** Proofs about the condensed problem: the hessian is exact. *)
From Verif Require Import Base RBase TreeModel UtilsModel UtilsProofs UtilsProofs2 CollocModel CollocProofs CollocProofs2 CollocProps
  NlpModel NlpProofs NlpProofs2 MeshModel MeshProofs MeshProps OcpModel OcpProofs OcpProofs2 OcpProofs3 OcpSpec OcpProps ConvProps CondModel CondSpec CondProofs CondProofs2 CondProofs3.

Lemma rsum_sum3 : forall X (L : list X) a b c (F : X -> nat -> nat -> nat -> R), rsum (map (fun t => sum3 a b c (F t)) L) = sum3 a b c (fun i j k => rsum (map (fun t => F t i j k) L)).
Proof.
  intros. unfold sum3. rewrite (rsum_swap _ _ (fun t i => rsum (map (fun j => rsum (map (fun k => F t i j k) (seq 0 c))) (seq 0 b)))). apply rsum_ext. intros i _.
  rewrite (rsum_swap _ _ (fun t j => rsum (map (fun k => F t i j k) (seq 0 c)))). apply rsum_ext. intros j _. apply (rsum_swap _ _ (fun t k => F t i j k)).
Qed.
Lemma sum2_sum3 : forall a' b' a b c (F : nat -> nat -> nat -> nat -> nat -> R), sum2 a' b' (fun u v => sum3 a b c (F u v)) = sum3 a b c (fun i j k => sum2 a' b' (fun u v => F u v i j k)).
Proof. intros. unfold sum2. rewrite <- rsum_sum3. apply rsum_ext. intros u _. apply rsum_sum3. Qed.
Lemma hess_sum3 : forall P n a b c (F : nat -> nat -> nat -> list R -> R) H, (forall i j k, (i < a)%nat -> (j < b)%nat -> (k < c)%nat -> is_hessian_on P n (F i j k) (H i j k)) ->
  is_hessian_on P n (fun x => sum3 a b c (fun i j k => F i j k x)) (fun x p q => sum3 a b c (fun i j k => H i j k x p q)).
Proof.
  intros P n a b c F H HF. unfold sum3. apply hess_on_sum. intros i Hi. apply hess_on_sum. intros j Hj. apply hess_on_sum. intros k Hk. apply in_seq in Hi, Hj, Hk. apply HF; lia.
Qed.
Lemma hess_sum2 : forall P n a b (F : nat -> nat -> list R -> R) H, (forall i j, (i < a)%nat -> (j < b)%nat -> is_hessian_on P n (F i j) (H i j)) ->
  is_hessian_on P n (fun x => sum2 a b (fun i j => F i j x)) (fun x p q => sum2 a b (fun i j => H i j x p q)).
Proof.
  intros P n a b F H HF. unfold sum2. apply hess_on_sum. intros i Hi. apply hess_on_sum. intros j Hj. apply in_seq in Hi, Hj. apply HF; lia.
Qed.
Lemma sum3_swap12 : forall a b c b' (F : nat -> nat -> nat -> nat -> R),
  sum3 a b c (fun i l k => rsum (map (fun j => F i l k j) (seq 0 b'))) = sum3 a b' c (fun i j k => rsum (map (fun l => F i l k j) (seq 0 b))).
Proof.
  intros. unfold sum3. apply rsum_ext. intros i _. rewrite (rsum_swap _ _ (fun l k => rsum (map (fun j => F i l k j) (seq 0 b')))). rewrite (rsum_swap _ _ (fun j k => rsum (map (fun l => F i l k j) (seq 0 b)))).
  apply rsum_ext. intros k _. apply (rsum_swap _ _ (fun l j => F i l k j)).
Qed.

Section Cond.
Variable o : ocp.
Hypothesis K : ocp_ok o.
Hypothesis Hn : (1 <= num_intervals o)%nat.
Hypothesis Hd : (1 <= num_states o)%nat.
Variables (alg : bcon) (nimp : nat).
Hypothesis EA : explicit_algebra o alg nimp.
Hypothesis XA : exact_algebra o alg.
Let op := oc_op o.
Let m := nspi op.
Let n := num_intervals o.
Let d := num_states o.
Let ns := num_stages op.
Let A := t_A (oc_tr o).
Let B := t_B (oc_tr o).
Let len i := vget i (interval_lengths (oc_mesh o)).
Notation ia := (ia o). Notation ib := (ib o). Notation isc := (isc o). Notation scl := (scl o).
Notation dt := (dt o). Notation Fv := (Fv o alg nimp). Notation isdot := (isdot o). Notation dots := (dots o). Notation G := (G o alg nimp). Notation dFv := (dFv o alg nimp).
Notation J := (alg_jac alg). Notation uu := (uu o).
Let con x := con_constraints alg x.
Let nd := num_dec op.
Let ncc := (n * ((m - 1) * d))%nat.
Let T (_ _ : nat) := True.

Lemma XJ' : is_jacobian (num_dec (oc_op o)) (c_ncon alg) (con_constraints alg) (alg_jac alg).
Proof using XA. exact (xa_jac o alg XA). Qed.
Lemma crow_lt : forall k c, (k < ns)%nat -> (c < nimp)%nat -> (k * nimp + c < c_ncon alg)%nat.
Proof using K Hn Hd EA XA. exact (row_lt o K Hn Hd alg nimp EA). Qed.
Lemma con_len : forall x, List.length x = nd -> List.length (con x) = c_ncon alg.
Proof using K Hn Hd EA. intros x L. rewrite (ea_ncon _ _ _ EA). now apply (ea_len _ _ _ EA). Qed.

Definition unit_at (t : nat) : list R := map (delta t) (seq 0 (c_ncon alg)).
Definition RH (t : nat) (x : list R) (p q : nat) : R := tri (c_hr alg) (c_hc alg) (con_hessian alg x (unit_at t)) p q.
Lemma unit_vdot : forall t v, (t < c_ncon alg)%nat -> List.length v = c_ncon alg -> vdot (unit_at t) v = vget t v.
Proof using.
  intros t v Ht L. rewrite (list_comp _ v 0) at 1. rewrite L. change (map (fun i => nth i v 0) (seq 0 (c_ncon alg))) with (map (fun i => vget i v) (seq 0 (c_ncon alg))). rewrite vdot_comp by (unfold unit_at; now rewrite map_length, seq_length).
  rewrite (rsum_single_in _ t _ Ht).
  - unfold unit_at, vget at 1. rewrite nth_comp by assumption. unfold delta. rewrite Nat.eqb_refl. ring.
  - intros i Hi N. unfold unit_at, vget at 1. rewrite nth_comp by assumption. unfold delta. destruct (Nat.eqb_spec t i); [congruence|ring].
Qed.
Lemma row_hess : forall t, (t < c_ncon alg)%nat -> is_hessian_on T nd (fun x => vget t (con x)) (RH t).
Proof using K Hn Hd EA XA.
  intros t Ht. destruct (xa_hess _ _ XA (unit_at t) ltac:(unfold unit_at; now rewrite map_length, seq_length)) as (g & G1 & G2).
  eapply hess_on_ext with (f := fun x => vdot (unit_at t) (con x)) (H := RH t); [|reflexivity|exists g; split; [exact G1|intros; now apply G2]]. intros x L. apply unit_vdot; [assumption|]. now apply con_len.
Qed.

Definition gU (lam x : list R) (q : nat) : R := sum3 (num_intervals o) (nspi (oc_op o)) (num_states o) (fun i j c => uu lam i j c * dFv (i * (nspi (oc_op o) - 1) + j) c q x).
Let U lam x := sum3 n m d (fun i j c => uu lam i j c * Fv (i * (m - 1) + j) c x).
Lemma U_grad : forall lam, is_gradient nd (U lam) (gU lam).
Proof using K Hn Hd EA XA.
  intros lam x q L Hq. unfold U, gU, sum3. fold op m n d. apply pderiv_rsum. intros i Hi. apply pderiv_rsum. intros j Hj. apply pderiv_rsum. intros c Hc. apply in_seq in Hi, Hj, Hc. apply pderiv_scal.
  apply (pderiv_Fv o K Hn Hd alg nimp EA XJ'); [apply (stage_lt o K Hn Hd); [fold n; lia|fold op m; lia]|fold d; lia|exact L|exact Hq].
Qed.
Lemma U_hess : forall lam, is_hessian_on T nd (U lam) (fun x p q => sum3 n m d (fun i j c => uu lam i j c * RH ((i * (m - 1) + j) * nimp + c) x p q)).
Proof using K Hn Hd EA XA.
  intros lam. unfold U. apply hess_sum3. intros i j c Hi Hj Hc. apply hess_on_scal. pose proof (ea_d _ _ _ EA) as Ed. fold d in Ed.
  eapply hess_on_ext; [reflexivity| |apply (hess_on_plus T nd (fun x => vget ((i * (m - 1) + j) * nimp + c) (con x)) (vget (dt (i * (m - 1) + j) c))); [apply row_hess, crow_lt; [now apply (stage_lt o K Hn Hd)|lia]|apply hess_coord]].
  intros. cbv beta. ring.
Qed.
Let lin lam x := sum3 n (m - 1) d (fun i l c => vget (rowno (m - 1) d i l c) lam * rsum (map (fun j => mget l j A * vget (ia i j c) x) (seq 0 m))).
Let rst lam x := sum2 ns (nimp - d) (fun k r => vget (ncc + (k * (nimp - d) + r)) lam * vget (k * nimp + (d + r)) (con x)).
Lemma lin_hess : forall lam, is_hessian_on T nd (lin lam) (fun _ _ _ => 0).
Proof using.
  intros lam. unfold lin. eapply hess_on_ext; [reflexivity| |apply (hess_sum3 T nd n (m - 1) d (fun i l c x => vget (rowno (m - 1) d i l c) lam * rsum (map (fun j => mget l j A * vget (ia i j c) x) (seq 0 m))) (fun _ _ _ _ _ _ => 0))].
  - intros. cbv beta. now apply sum3_zero.
  - intros i l c _ _ _. apply hess_on_scal0. apply hess_on_lin. intros j _. apply hess_on_scal0. apply hess_coord.
Qed.
Lemma rst_hess : forall lam, is_hessian_on T nd (rst lam) (fun x p q => sum2 ns (nimp - d) (fun k r => vget (ncc + (k * (nimp - d) + r)) lam * RH (k * nimp + (d + r)) x p q)).
Proof using K Hn Hd EA XA. intros lam. unfold rst. apply hess_sum2. intros k r Hk Hr. apply hess_on_scal. apply row_hess, crow_lt; [exact Hk|lia]. Qed.

Lemma lagr_split : forall lam x, List.length lam = num_condensed o nimp -> vdot lam (cond_list o alg nimp x) = lin lam x + scl x * U lam x + rst lam x.
Proof using K Hn Hd EA.
  intros lam x L. assert (num_condensed o nimp = (ncc + ns * (nimp - d))%nat) as NC by (unfold num_condensed, ncc; fold op m n d ns; lia).
  rewrite <- (firstn_skipn ncc lam) at 1. unfold cond_list. fold op m n d.
  rewrite vdot_app by (rewrite comp3_len, firstn_length_le; [reflexivity|rewrite L, NC; apply Nat.le_add_r]). f_equal.
  - rewrite vdot_comp3 by (rewrite firstn_length_le; [reflexivity|rewrite L, NC; apply Nat.le_add_r]).
    change (sum3 n (m - 1) d (fun i l c => vget (rowno (m - 1) d i l c) (firstn ncc lam) * G i l c x) = lin lam x + scl x * U lam x).
    transitivity (sum3 n (m - 1) d (fun i l c => vget (rowno (m - 1) d i l c) lam * rsum (map (fun j => mget l j A * vget (ia i j c) x) (seq 0 m)) +
       rsum (map (fun j => scl x * (- mget l j B * (vget (rowno (m - 1) d i l c) lam * len i) * Fv (i * (m - 1) + j) c x)) (seq 0 m)))).
    + apply sum3_ext. intros i l c Hi Hl Hc. rewrite firstn_vget.
      2: { unfold rowno, ncc. assert ((i + 1) * ((m - 1) * d) <= n * ((m - 1) * d))%nat by (apply Nat.mul_le_mono_r; lia). assert ((l + 1) * d <= (m - 1) * d)%nat by (apply Nat.mul_le_mono_r; lia). lia. }
      unfold CondProofs.G. fold op m A B. unfold Rminus. rewrite Rmult_plus_distr_l. f_equal. rewrite Ropp_mult_distr_r_reverse, Ropp_mult_distr_l. rewrite <- rsum_mult_l. apply rsum_ext. intros j _. fold (len i). ring.
    + rewrite sum3_plus. f_equal. rewrite (sum3_swap12 n (m - 1) d m (fun i l c j => scl x * (- mget l j B * (vget (rowno (m - 1) d i l c) lam * len i) * Fv (i * (m - 1) + j) c x))).
      unfold U. rewrite <- sum3_scal. apply sum3_ext. intros i j c _ _ _. unfold CondProofs3.uu. fold op m d B. rewrite <- Rmult_assoc. rewrite (Rmult_comm (scl x)), Rmult_assoc, Rmult_comm, <- rsum_mult_l. apply rsum_ext. intros l _. fold (len i). ring.
  - unfold restl. fold op ns d. rewrite (vdot_blocks (nimp - d)); [|intros; now rewrite map_length, seq_length|rewrite skipn_length, L, NC, Nat.add_comm, Nat.add_sub; reflexivity].
    unfold rst, sum2. apply rsum_ext. intros k Hk. apply in_seq in Hk. rewrite vdot_comp.
    2: { rewrite firstn_length_le; [reflexivity|]. rewrite !skipn_length, L, NC. replace (ncc + ns * (nimp - d) - ncc)%nat with (ns * (nimp - d))%nat by (rewrite Nat.add_comm, Nat.add_sub; reflexivity). assert ((k + 1) * (nimp - d) <= ns * (nimp - d))%nat by (apply Nat.mul_le_mono_r; lia). lia. }
    apply rsum_ext. intros r Hr. apply in_seq in Hr. f_equal. rewrite firstn_vget by lia. now rewrite !skipn_vget.
Qed.

(** the true hessian, in terms of the equivalent multipliers *)
Lemma hess_true : forall lam, List.length lam = num_condensed o nimp -> exists H, is_hessian_on T nd (fun x => vdot lam (cond_list o alg nimp x)) H /\
  forall x leq p q, List.length x = nd -> equivalent_multipliers o x lam = Ok leq -> (p < nd)%nat -> (q < nd)%nat ->
    H x p q = dscl o p * gU lam x q + dscl o q * gU lam x p + tri (c_hr alg) (c_hc alg) (con_hessian alg x leq) p q.
Proof using K Hn Hd EA XA.
  intros lam L.
  set (HU := fun x p q => sum3 n m d (fun i j c => uu lam i j c * RH ((i * (m - 1) + j) * nimp + c) x p q)).
  set (HR := fun x p q => sum2 ns (nimp - d) (fun k r => vget (ncc + (k * (nimp - d) + r)) lam * RH (k * nimp + (d + r)) x p q)).
  exists (fun x p q => 0 + (dscl o p * gU lam x q + dscl o q * gU lam x p + scl x * HU x p q) + HR x p q). split.
  - eapply hess_on_ext; [intros x Lx; symmetry; now apply lagr_split|reflexivity|].
    apply (hess_on_plus T nd (fun x => lin lam x + scl x * U lam x) (rst lam)); [|apply rst_hess]. apply (hess_on_plus T nd (lin lam) (fun x => scl x * U lam x)); [apply lin_hess|].
    apply (hess_prod nd scl (U lam) (dscl o) (gU lam) HU); [intros; now apply (pderiv_scl o K Hn Hd)|apply U_grad|apply U_hess].
  - intros x leq p q Lx E Hp Hq. destruct (mults_ok o K Hn Hd alg nimp EA x lam Lx L) as (leq' & E' & Ll & Hv). rewrite E in E'. injection E' as <-.
    assert (tri (c_hr alg) (c_hc alg) (con_hessian alg x leq) p q = scl x * HU x p q + HR x p q) as ->; [|ring].
    set (s := scl x) in *.
    apply (hess_on_unique T nd (fun y => vdot leq (con y)) (fun y => tri (c_hr alg) (c_hc alg) (con_hessian alg y leq)) (fun y p q => s * HU y p q + HR y p q)); auto; [| |exact I].
    + destruct (xa_hess _ _ XA leq ltac:(rewrite (ea_ncon _ _ _ EA); exact Ll)) as (g & G1 & G2). exists g. split; [exact G1|]. intros; now apply G2.
    + eapply hess_on_ext; [intros y Ly; symmetry; apply Hv; now apply (ea_len _ _ _ EA)|reflexivity|]. unfold pairing. fold op m n d ns.
      apply (hess_on_plus T nd (fun y => s * sum3 n m d (fun i j c => uu lam i j c * vget ((i * (m - 1) + j) * nimp + c) (con_constraints alg y))) (rst lam)); [|apply rst_hess].
      apply hess_on_scal. apply (hess_sum3 T nd n m d (fun i j c y => uu lam i j c * vget ((i * (m - 1) + j) * nimp + c) (con_constraints alg y))). intros i j c Hi Hj Hc. apply hess_on_scal. pose proof (ea_d _ _ _ EA) as Ed. fold d in Ed. apply row_hess, crow_lt; [now apply (stage_lt o K Hn Hd)|lia].
Qed.

(** the extra column *)
Lemma gather3 : forall (phi : nat -> nat -> R) (u : nat -> nat -> nat -> R), sum2 ns d (fun k c => phi k c * sum3 n m d (fun i j c' => if Nat.eqb (ib i j c') (dt k c) then u i j c' else 0)) = sum3 n m d (fun i j c => u i j c * phi (i * (m - 1) + j)%nat c).
Proof using K Hn Hd.
  intros phi u. transitivity (sum2 ns d (fun k c => sum3 n m d (fun i j c' => phi k c * (if Nat.eqb (ib i j c') (dt k c) then u i j c' else 0)))).
  { apply sum2_ext. intros k c _ _. symmetry. apply sum3_scal. }
  rewrite sum2_sum3. apply sum3_ext. intros i j c Hi Hj Hc. pose proof (stage_lt o K Hn Hd i j Hi Hj) as SL. fold op m ns in SL. unfold sum2. rewrite (rsum_single_in _ (i * (m - 1) + j) ns SL).
  - rewrite (rsum_single_in _ c d Hc).
    + change (dt (i * (m - 1) + j) c) with (ib i j c). rewrite Nat.eqb_refl. ring.
    + intros c' Hc' N. destruct (Nat.eqb_spec (ib i j c) (dt (i * (m - 1) + j) c')) as [E|]; [|ring]. rewrite (ib_dt o i j c) in E. apply (dt_inj o K Hn Hd) in E; [|exact Hc|exact Hc']. lia.
  - intros k Hk N. apply rsum_zero_seq. intros c' Hc'. destruct (Nat.eqb_spec (ib i j c) (dt k c')) as [E|]; [|ring]. rewrite (ib_dt o i j c) in E. apply (dt_inj o K Hn Hd) in E; [|exact Hc|exact Hc']. fold op m in E. lia.
Qed.
Definition extra (x lam : list R) (q : nat) : R := if existsb (Nat.eqb q) dots then 0 else sum3 (num_intervals o) (nspi (oc_op o)) (num_states o) (fun i j c => uu lam i j c * J x ((i * (nspi (oc_op o) - 1) + j) * nimp + c) q).
Lemma extra_gU : forall x lam q, List.length x = nd -> (q < nd)%nat -> extra x lam q = gU lam x q.
Proof using K Hn Hd EA XA.
  intros x lam q L Hq. unfold extra, gU. fold op m n d. destruct (existsb (Nat.eqb q) dots) eqn:E.
  - symmetry. apply sum3_zero. intros i j c Hi Hj Hc. rewrite (dFv_dot o K Hn Hd alg nimp EA XJ'); [ring|now apply (stage_lt o K Hn Hd)|exact Hc|exact L|]. now apply (existsb_dots o K Hn Hd).
  - apply sum3_ext. intros i j c Hi Hj Hc. f_equal. unfold CondProofs2.dFv, delta. destruct (Nat.eqb_spec (dt (i * (m - 1) + j) c) q) as [<-|]; [|ring].
    exfalso. assert (isdot (dt (i * (m - 1) + j) c)) as D by (exists (i * (m - 1) + j)%nat, c; repeat split; [now apply (stage_lt o K Hn Hd)|exact Hc]). apply (existsb_dots o K Hn Hd) in D. congruence.
Qed.
Lemma extra_eq : forall x lam, oc_fixed o = None -> List.length lam = num_condensed o nimp -> exists hs hv, continuity_hessianstructure o = Ok hs /\ continuity_hessian o (firstn (n * (m - 1) * d) lam) = Ok hv /\
  forall q, (if existsb (Nat.eqb q) dots then 0 else rsum (map2 (fun a e => J x e q * tri (fst hs) (snd hs) hv a (nd - 1)%nat) dots (xdot_eqs o nimp))) = extra x lam q.
Proof using K Hn Hd EA XA.
  intros x lam EF L. assert (num_condensed o nimp = (ncc + ns * (nimp - d))%nat) as NC by (unfold num_condensed, ncc; fold op m n d ns; lia).
  assert ((n * (m - 1) * d)%nat = ncc) as NC2 by (unfold ncc; lia). rewrite NC2.
  exists (hessR o, hessC o), (hessV o (firstn ncc lam)). split; [now apply (hess_struct o K Hn Hd)|].
  split; [apply (hess_vals o K Hn Hd); rewrite firstn_length_le; [reflexivity|rewrite L, NC; apply Nat.le_add_r]|].
  intro q. unfold extra. fold op m n d. destruct (existsb (Nat.eqb q) dots); [reflexivity|]. unfold xdot_eqs, stack_and_increment, CondProofs.dots. fold op ns d.
  rewrite (map2_blocks _ _ _ _ dt (fun k c => c + k * nimp)%nat d (seq 0 ns)), rsum_blocks. cbn [fst snd].
  destruct (index_scale o K Hn Hd EF) as (_ & _ & ND). fold op nd in ND. assert (nd - 1 = isc)%nat as -> by lia.
  change (sum2 ns d (fun k c => J x (c + k * nimp)%nat q * tri (hessR o) (hessC o) (hessV o (firstn ncc lam)) (dt k c) isc) = sum3 n m d (fun i j c => uu lam i j c * J x ((i * (m - 1) + j) * nimp + c)%nat q)).
  transitivity (sum3 n m d (fun i j c => uu lam i j c * J x (c + (i * (m - 1) + j) * nimp)%nat q)).
  2: { apply sum3_ext. intros i j c _ _ _. do 2 f_equal. lia. }
  rewrite <- (gather3 (fun k c => J x (c + k * nimp)%nat q) (uu lam)). apply sum2_ext. intros k c Hk Hc. f_equal.
  unfold hessR, hessC, hessV. fold op m n d. rewrite tri_comp3. change (sum3 n m d (fun i j c' => if (Nat.eqb (ib i j c') (dt k c) && Nat.eqb isc isc)%bool then rsum (map (fun l => - mget l j (t_B (oc_tr o)) * (vget (rowno (m - 1) d i l c') (firstn ncc lam) * vget i (interval_lengths (oc_mesh o)))) (seq 0 (m - 1))) else 0) =
     sum3 n m d (fun i j c' => if Nat.eqb (ib i j c') (dt k c) then uu lam i j c' else 0)).
  apply sum3_ext. intros i j c' Hi Hj Hc'. rewrite Nat.eqb_refl, andb_true_r. destruct (Nat.eqb (ib i j c') (dt k c)); [|reflexivity]. unfold CondProofs3.uu. fold op m d. apply rsum_ext. intros l Hl. apply in_seq in Hl. rewrite firstn_vget; [reflexivity|].
  unfold rowno, ncc. assert ((i + 1) * ((m - 1) * d) <= n * ((m - 1) * d))%nat by (apply Nat.mul_le_mono_r; lia). assert ((l + 1) * d <= (m - 1) * d)%nat by (apply Nat.mul_le_mono_r; lia). lia.
Qed.
Lemma mesh_free_J : forall x r, oc_fixed o = None -> mesh_free o alg -> List.length x = nd -> (r < c_ncon alg)%nat -> J x r isc = 0.
Proof using K Hn Hd EA XA.
  intros x r EF MF L Hr. destruct (index_scale o K Hn Hd EF) as (_ & _ & ND). fold op nd in ND.
  eapply pderiv_unique; [apply XJ'; [exact L|exact Hr|fold op nd; lia]|]. unfold pderiv. eapply dlim_ext; [|apply (dlim_const (vget r (con x)))]. intro t. cbv beta. unfold con. rewrite <- (MF x t L). fold op nd. replace (nd - 1)%nat with isc by lia. reflexivity.
Qed.

(** the declared condensed hessian *)
Lemma cond_hess_vals : forall x lam, List.length x = nd -> List.length lam = num_condensed o nimp -> exists leq v, equivalent_multipliers o x lam = Ok leq /\ condensed_hessian o alg nimp x lam = Ok v /\
  List.length (fst (condensed_hessianstructure o alg)) = List.length (snd (condensed_hessianstructure o alg)) /\ List.length v = List.length (fst (condensed_hessianstructure o alg)) /\
  forall p q, (p < nd)%nat -> tri (fst (condensed_hessianstructure o alg)) (snd (condensed_hessianstructure o alg)) v p q =
    tri (c_hr alg) (c_hc alg) (con_hessian alg x leq) p q + (match oc_fixed o with Some _ => 0 | None => if Nat.eqb q isc then gU lam x p else 0 end).
Proof using K Hn Hd EA XA.
  intros x lam Lx Ll. destruct (mults_ok o K Hn Hd alg nimp EA x lam Lx Ll) as (leq & E & Lq & _). exists leq.
  assert (List.length (con_hessian alg x leq) = List.length (c_hr alg)) as LH by (apply (xa_vlen _ _ XA); [exact Lx|rewrite (ea_ncon _ _ _ EA); exact Lq]).
  unfold condensed_hessian, condensed_hessianstructure. rewrite E. cbn [bind]. destruct (oc_fixed o) as [s|] eqn:EF.
  - destruct (no_scale o K Hn Hd s EF) as [HS _]. rewrite HS. exists (con_hessian alg x leq). cbn [fst snd]. repeat split; [apply (xa_hlen _ _ XA)|exact LH|]. intros. ring.
  - destruct (index_scale o K Hn Hd EF) as (_ & HS & ND). rewrite HS. fold op nd in ND |- *. rewrite (idx_eq o K Hn Hd : group_indices_in_dec op "states_dot" = _). cbn [bind]. fold m n d.
    destruct (extra_eq x lam EF Ll) as (hs & hv & E1 & E2 & E3). rewrite E1. cbn [bind]. rewrite E2. cbn [bind]. eexists. split; [reflexivity|]. split; [reflexivity|]. cbn [fst snd].
    split; [rewrite !app_length, seq_length, repeat_length; now rewrite (xa_hlen _ _ XA)|]. split; [rewrite !app_length, map_length; now rewrite LH|].
    intros p q Hp. rewrite tri_app; [|apply (xa_hlen _ _ XA)|symmetry; exact LH]. f_equal.
    rewrite (map_ext _ _ E3). rewrite repeat_comp. rewrite <- (map_id (seq 0 nd)) at 1. rewrite tri_comp. rewrite (rsum_single_in _ p nd Hp).
    + rewrite Nat.eqb_refl. cbn [andb]. replace (nd - 1)%nat with isc by lia. rewrite (Nat.eqb_sym q isc). destruct (Nat.eqb isc q); [now apply extra_gU|reflexivity].
    + intros t Ht N. destruct (Nat.eqb_spec t p); [contradiction|reflexivity].
Qed.
Definition upper (p q : nat) : Prop := (p <= q)%nat /\ ((p <> num_dec (oc_op o) - 1)%nat \/ mesh_free o alg).
Lemma cond_hess_exact : forall lam H, List.length lam = num_condensed o nimp ->
  (forall x, List.length x = nd -> exists v, condensed_hessian o alg nimp x lam = Ok v /\ H x = tri (fst (condensed_hessianstructure o alg)) (snd (condensed_hessianstructure o alg)) v) ->
  (forall s, oc_fixed o = Some s -> is_hessian nd (fun x => vdot lam (cond_list o alg nimp x)) H) /\
  (oc_fixed o = None -> is_hessian_on upper nd (fun x => vdot lam (cond_list o alg nimp x)) H).
Proof using K Hn Hd EA XA.
  intros lam H Ll HH. destruct (hess_true lam Ll) as (H0 & (g & G1 & G2) & HE).
  assert (forall x p q, List.length x = nd -> (p < nd)%nat -> (q < nd)%nat -> exists leq, equivalent_multipliers o x lam = Ok leq /\ H x p q = tri (c_hr alg) (c_hc alg) (con_hessian alg x leq) p q + (match oc_fixed o with Some _ => 0 | None => if Nat.eqb q isc then gU lam x p else 0 end)) as HV.
  { intros x p q L Hp Hq. destruct (cond_hess_vals x lam L Ll) as (leq & v & E & Ev & _ & _ & Ht). destruct (HH x L) as (v' & Ev' & ->). rewrite Ev in Ev'. injection Ev' as <-. exists leq. split; [exact E|]. now apply Ht. }
  split.
  - intros s EF. exists g. split; [exact G1|]. intros x p q L Hp Hq. destruct (HV x p q L Hp Hq) as (leq & E & ->). rewrite EF. eapply pderiv_eq; [|now apply (G2 x p q L Hp Hq I)]. rewrite (HE x leq p q L E Hp Hq). unfold dscl. rewrite EF. ring.
  - intro EF. exists g. split; [exact G1|]. intros x p q L Hp Hq [Hle HM]. destruct (HV x p q L Hp Hq) as (leq & E & ->). rewrite EF. eapply pderiv_eq; [|now apply (G2 x p q L Hp Hq I)]. rewrite (HE x leq p q L E Hp Hq). unfold dscl. rewrite EF.
    destruct (index_scale o K Hn Hd EF) as (_ & _ & ND). fold op nd in ND. fold op nd in HM. rewrite (Nat.eqb_sym q isc). destruct (Nat.eqb_spec isc q) as [Eq|Nq].
    + destruct (Nat.eqb_spec isc p) as [Ep|Np]; [|ring]. destruct HM as [HM|HM]; [lia|]. subst p q.
      assert (gU lam x isc = 0) as ->; [|ring]. unfold gU. apply sum3_zero. intros i j c Hi Hj Hc. unfold CondProofs2.dFv. pose proof (ea_d _ _ _ EA) as Ed. fold d in Ed, Hc. rewrite mesh_free_J; [|exact EF|exact HM|exact L|apply crow_lt; [now apply (stage_lt o K Hn Hd)|lia]].
      unfold delta. destruct (Nat.eqb_spec (dt (i * (nspi (oc_op o) - 1) + j) c) isc) as [E2|]; [|ring]. pose proof (dt_lt_isc o K Hn Hd _ c (stage_lt o K Hn Hd i j Hi Hj) Hc). lia.
    + destruct (Nat.eqb_spec isc p) as [Ep|Np]; [lia|ring].
Qed.
End Cond.
