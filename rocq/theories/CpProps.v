(** C65: array parameters of a model compiled with CasADi. *)
From Verif Require Import Base TreeModel TreeSpec TreeProofs TreeProofs2 TreeProps RBase AeroModel CpModel CpSpec CpProofs CpProofs2.
From Coq Require Import Lra Lia PeanoNat.
Open Scope nat_scope.

Lemma Forall2_map_r : forall A B (P : A -> B -> Prop) (Q : A -> Prop) (f : A -> B) l,
  (forall x, Q x -> P x (f x)) -> Forall Q l -> Forall2 P l (map f l).
Proof. intros A B P Q f l H F. induction F; cbn; constructor; auto. Qed.

Lemma Forall_and2 : forall A (P Q : A -> Prop) l, Forall P l -> Forall Q l -> Forall (fun x => P x /\ Q x) l.
Proof. intros A P Q l HP. induction HP; intros HQ; inversion HQ; subst; constructor; auto. Qed.

(** A model built with numpy parameters t0 and run with numpy parameters t of the same structure and
    shapes (t0 = t, or t with other numbers): the compiled functions see a tree of the same structure, in
    which each parameter keeps its dimensions but has its elements in the wrong order. *)
Theorem C65_compiled : forall A dummy (t0 t : ptree (pval A)), uniq_p t0 = true -> named_p t0 = true ->
  Forall numpy (leaf_values t0) -> Forall well_formed (leaf_values t0) ->
  Forall numpy (leaf_values t) -> Forall well_formed (leaf_values t) ->
  shape t = shape t0 -> map pshape (leaf_values t) = map pshape (leaf_values t0) ->
  exists t', compiled_params dummy t0 t = Ok t' /\ shape t' = shape t /\
    Forall casadi (leaf_values t') /\ Forall2 scrambled (leaf_values t) (leaf_values t').
Proof.
  intros A dummy t0 t Hu Hn N0 W0 N W HS HP.
  destruct (compiled_spec dummy t0 t Hu Hn N0 W0 N HS HP W) as [t' [E [S1 L]]].
  exists t'. split; [exact E|]. split; [exact S1|]. rewrite L. split.
  - apply Forall_forall. intros y Hy. apply in_map_iff in Hy. destruct Hy as [x [<- _]]. unfold as_cas.
    destruct (dims x) as [[p q]|]; eexists _, _, _; reflexivity.
  - apply (Forall2_map_r _ _ _ (fun x => numpy x /\ well_formed x)).
    + intros x [H1 H2]. apply as_cas_scrambled; assumption.
    + apply Forall_and2; assumption.
Qed.
Print Assumptions C65_compiled.

(** Parameters that are scalars, vectors, single rows or single columns are seen as they are. *)
Theorem C65_vectors : forall A dummy (t0 t : ptree (pval A)), uniq_p t0 = true -> named_p t0 = true ->
  Forall numpy (leaf_values t0) -> Forall well_formed (leaf_values t0) ->
  Forall numpy (leaf_values t) -> Forall well_formed (leaf_values t) ->
  shape t = shape t0 -> map pshape (leaf_values t) = map pshape (leaf_values t0) ->
  Forall no_matrix (leaf_values t) ->
  exists t', compiled_params dummy t0 t = Ok t' /\ shape t' = shape t /\ Forall2 same (leaf_values t) (leaf_values t').
Proof.
  intros A dummy t0 t Hu Hn N0 W0 N W HS HP NM.
  destruct (C65_compiled A dummy t0 t Hu Hn N0 W0 N W HS HP) as [t' [E [S1 [C F]]]].
  exists t'. split; [exact E|]. split; [exact S1|]. clear - N NM C F.
  revert N NM C. induction F as [|x y l l' H F IH]; intros N NM C; [constructor|].
  inversion N; inversion NM; inversion C; subst. constructor; [apply scrambled_thin|apply IH]; assumption.
Qed.
Print Assumptions C65_vectors.

(** A square matrix is seen transposed. *)
Theorem C65_square : forall A (x y : pval A) n, dims x = Some (n, n) -> scrambled x y ->
  forall i j, i < n -> j < n -> at2 y i j = at2 x j i.
Proof.
  intros A x y n D [p [q [D1 [D2 H]]]] i j Hi Hj. rewrite D in D1. injection D1 as <- <-. rewrite (H i j Hi Hj).
  f_equal; [|rewrite Nat.add_comm, Nat.mod_add, Nat.mod_small; lia].
  rewrite Nat.div_add_l by lia. rewrite Nat.div_small; lia.
Qed.
Print Assumptions C65_square.

(** Every matrix with at least two rows, at least two columns and different elements is seen wrongly. *)
Theorem C65_matrix_refuted : forall A (x y : pval A) p q, dims x = Some (p, q) -> 2 <= p -> 2 <= q ->
  numpy x -> well_formed x ->
  (forall i j i' j', i < p -> j < q -> i' < p -> j' < q -> at2 x i j = at2 x i' j' -> i = i' /\ j = j') ->
  scrambled x y -> ~ same x y.
Proof.
  intros A x y p q D Hp Hq Hx Hw Inj [p' [q' [D1 [D2 H]]]] [_ S]. rewrite D in D1. injection D1 as <- <-.
  specialize (H 0 1 ltac:(lia) ltac:(lia)). rewrite <- S in H.
  destruct (Inj 0 1 ((1 * p + 0) / q) ((1 * p + 0) mod q)) as [E1 E2]; try lia; try exact H.
  - apply Nat.div_lt_upper_bound; nia.
  - apply Nat.mod_upper_bound. lia.
  - pose proof (Nat.div_mod (1 * p + 0) q ltac:(lia)) as DM. rewrite <- E1, <- E2 in DM. nia.
Qed.
Print Assumptions C65_matrix_refuted.

(** With numpy alone (jax) and with CasADi alone, raveling and unraveling is the identity: only the
    mixture is wrong. *)
Theorem C65_unmixed : forall A dummy (t : ptree (pval A)), uniq_p t = true -> named_p t = true ->
  Forall well_formed (leaf_values t) -> leaf_values t <> [] ->
  (Forall casadi (leaf_values t) \/ Forall (fun x => numpy x /\ (1 < psize x \/ exists a, x = PNum (LScalar a))) (leaf_values t)) ->
  exists v unravel, ptree_ravel dummy t = Ok (v, unravel) /\ unravel v = Ok t.
Proof.
  intros A dummy t Hu Hn Hw Hne [H|H].
  - destruct (ravel_cas_cas dummy t Hu Hn Hne H Hw) as [v [unr [E [_ U]]]]. eauto.
  - destruct (ravel_num_num dummy t Hu Hn) as [v [unr [E [_ U]]]]; [|eauto].
    clear - H Hw. revert Hw. induction H as [|x l [[v ->] Hx] F IH]; intros Hw; [constructor|].
    inversion Hw as [|? ? Hv Hr]; subst. constructor; [|apply IH; exact Hr]. exists v. split; [reflexivity|].
    destruct Hv as [p [q [D [P L]]]]. destruct v as [a|s e]; [reflexivity|]. destruct Hx as [Hx|[a Hx]]; [|discriminate].
    cbn [psize lsize] in Hx, L. unfold leaf_ok. rewrite (proj2 (Nat.ltb_lt _ _) Hx). cbn [andb]. apply Nat.eqb_eq. rewrite L.
    cbn [dims] in D. destruct s as [|n [|m [|k s]]]; try discriminate; injection D as <- <-; cbn; lia.
Qed.
Print Assumptions C65_unmixed.

(** numpy parameters of three dimensions work with jax but cannot be compiled with CasADi. *)
Theorem C65_cube_refuted : exists t : ptree (pval nat), uniq_p t = true /\ named_p t = true /\
  bind (ptree_ravel (PNum (LScalar 0)) t) (fun vu => snd vu (fst vu)) = Ok t /\
  compiled_params (PNum (LScalar 0)) t t = Raise NotImplementedError.
Proof.
  exists (Node [("w", PNum (LArray [2; 2; 2] [1; 2; 3; 4; 5; 6; 7; 8]))] []). repeat split; vm_compute; reflexivity.
Qed.
Print Assumptions C65_cube_refuted.

(** With CasADi the coefficients of an aero map with one square weight matrix are those of the transposed
    matrix: here the drag is tanh 0 = 0 where numpy and jax give tanh 1. *)
Definition w3 : list R := [0; 1; 0; 0; 0; 0; 0; 0; 0]%R.
Definition mlp_params : dict (pval R) := [("air_density", PNum (LScalar 1%R)); ("weights_layer_0", PNum (LArray [3; 3] w3))].
Definition mlp_inputs : dict R := [("front_ride_height", 0%R); ("rear_ride_height", 1%R); ("yaw", 0%R)].
Lemma compiled_3x3 : forall A (dm : pval A) (b a0 a1 a2 a3 a4 a5 a6 a7 a8 : A),
  let t := Node [("air_density", PNum (LScalar b)); ("weights_layer_0", PNum (LArray [3; 3] [a0; a1; a2; a3; a4; a5; a6; a7; a8]))] [] in
  compiled_params dm t t =
  Ok (Node [("air_density", PCas 1 1 [b]); ("weights_layer_0", PCas 3 3 [a0; a1; a2; a3; a4; a5; a6; a7; a8])] []).
Proof. intros. vm_compute. reflexivity. Qed.
Theorem C65_mlp_refuted : exists t' out out',
  compiled_params (PNum (LScalar 0%R)) (Node mlp_params []) (Node mlp_params []) = Ok t' /\
  mlp_with mlp_params mlp_inputs = Ok out /\ mlp_with (tdata t') mlp_inputs = Ok out' /\
  dget "Cx" out = Some (tanh 1) /\ dget "Cx" out' = Some (tanh 0) /\ tanh 0 <> tanh 1.
Proof.
  eexists _, _, _. split; [apply compiled_3x3|].
  split; [cbn; reflexivity|]. split; [cbn; reflexivity|]. cbn.
  split; [replace (0 * 0 + (1 * 1 + (0 * 0 + 0)))%R with 1%R by lra; reflexivity|].
  split; [replace (0 * 0 + (0 * 1 + (0 * 0 + 0)))%R with 0%R by lra; reflexivity|].
  assert (T0 : tanh 0 = 0%R).
  { unfold tanh, sinh. rewrite Ropp_0. unfold Rdiv. rewrite Rminus_diag_eq by reflexivity. ring. }
  assert (T1 : (0 < tanh 1)%R).
  { unfold tanh, sinh, cosh. pose proof (exp_pos 1). pose proof (exp_pos (- (1))).
    assert (exp (- (1)) < exp 1)%R by (apply exp_increasing; lra).
    apply Rmult_lt_0_compat; [lra|]. apply Rinv_0_lt_compat. lra. }
  lra.
Qed.
Print Assumptions C65_mlp_refuted.

(** The same for a gaussian process with two points: numpy and jax give exp (-1), CasADi gives exp 0. *)
Definition gp_params : dict (pval R) :=
  [("gp_points", PNum (LArray [2; 3] [0; 1; 0; 0; 0; 0]%R)); ("alpha", PNum (LArray [3; 2] [1; 0; 0; 0; 0; 0]%R))].
Definition gp_inputs : dict R := [("front_ride_height", 0%R); ("rear_ride_height", 0%R); ("yaw", 0%R)].
Lemma compiled_gp : forall A (dm : pval A) (a0 a1 a2 a3 a4 a5 b0 b1 b2 b3 b4 b5 : A),
  let t := Node [("gp_points", PNum (LArray [2; 3] [a0; a1; a2; a3; a4; a5])); ("alpha", PNum (LArray [3; 2] [b0; b1; b2; b3; b4; b5]))] [] in
  compiled_params dm t t =
  Ok (Node [("gp_points", PCas 2 3 [a0; a1; a2; a3; a4; a5]); ("alpha", PCas 3 2 [b0; b1; b2; b3; b4; b5])] []).
Proof. intros. vm_compute. reflexivity. Qed.
Theorem C65_gp_refuted : exists t' out out',
  compiled_params (PNum (LScalar 0%R)) (Node gp_params []) (Node gp_params []) = Ok t' /\
  gp_with gp_params gp_inputs = Ok out /\ gp_with (tdata t') gp_inputs = Ok out' /\
  dget "Cx" out = Some (exp (-1)) /\ dget "Cx" out' = Some 1%R /\ exp (-1) <> 1%R.
Proof.
  eexists _, _, _. split; [apply compiled_gp|].
  split; [cbn; reflexivity|]. split; [cbn; reflexivity|]. cbn.
  assert (D1 : forall a b, rbf [0; 1; 0]%R [0; 0; 0]%R = a -> exp (-1) = b -> a = b).
  { intros a b <- <-. unfold rbf, sqdist. f_equal. cbn. lra. }
  assert (E1 : rbf [0; 1; 0]%R [0; 0; 0]%R = exp (-1)) by (unfold rbf, sqdist; f_equal; cbn; lra).
  assert (E0 : rbf [0; 0; 0]%R [0; 0; 0]%R = 1%R) by (unfold rbf, sqdist; rewrite <- exp_0; f_equal; cbn; lra).
  rewrite ?E1, ?E0. split; [f_equal; lra|]. split; [f_equal; lra|].
  pose proof (exp_increasing (-1) 0 ltac:(lra)) as H. rewrite exp_0 in H. lra.
Qed.
Print Assumptions C65_gp_refuted.

(** What [@] and [sum] in the aero maps use are the elements of the matrix. *)
Theorem C65_rows : forall (x : pval R) p q, dims x = Some (p, q) -> well_formed x ->
  List.length (prows x) = p /\
  forall i, i < p -> List.length (nth i (prows x) []) = q /\
  forall j, j < q -> at2 x i j = Some (nth j (nth i (prows x) []) 0%R).
Proof.
  intros x p q D [p' [q' [D' [P L]]]]. rewrite D in D'. injection D' as <- <-.
  assert (NE : forall (e : list R) k, k < List.length e -> nth_error e k = Some (nth k e 0%R)).
  { induction e as [|a e IH]; intros [|k] H; cbn in *; try lia; auto. apply IH. lia. }
  assert (RW : forall (f : nat -> nat -> nat) (e : list R), List.length e = p * q -> (forall i j, i < p -> j < q -> f i j < p * q) ->
     let rows := map (fun i => map (fun j => nth (f i j) e 0%R) (seq 0 q)) (seq 0 p) in
     List.length rows = p /\ forall i, i < p -> List.length (nth i rows []) = q /\
     forall j, j < q -> nth_error e (f i j) = Some (nth j (nth i rows []) 0%R)).
  { intros f e Le Hf rows. unfold rows. split; [rewrite map_length, seq_length; reflexivity|]. intros i Hi.
    assert (NI : nth i (map (fun i0 => map (fun j => nth (f i0 j) e 0%R) (seq 0 q)) (seq 0 p)) [] =
                 map (fun j => nth (f i j) e 0%R) (seq 0 q)).
    { rewrite (nth_indep _ [] (map (fun j => nth (f 0 j) e 0%R) (seq 0 q))) by (rewrite map_length, seq_length; exact Hi).
      rewrite (map_nth (fun i0 => map (fun j => nth (f i0 j) e 0%R) (seq 0 q)) (seq 0 p) 0 i), seq_nth by exact Hi. reflexivity. }
    rewrite NI. split; [rewrite map_length, seq_length; reflexivity|]. intros j Hj.
    rewrite (nth_indep _ 0%R (nth (f i 0) e 0%R)) by (rewrite map_length, seq_length; exact Hj).
    rewrite (map_nth (fun j0 => nth (f i j0) e 0%R) (seq 0 q) 0 j), seq_nth by exact Hj. cbn [Nat.add]. apply NE.
    rewrite Le. apply Hf; assumption. }
  destruct x as [[a|s v]|r c e]; cbn [dims psize lsize] in D, L.
  - injection D as <- <-. cbn [prows]. split; [reflexivity|]. intros i Hi. assert (i = 0) as -> by lia. split; [reflexivity|].
    intros j Hj. assert (j = 0) as -> by lia. reflexivity.
  - destruct s as [|n [|m [|k s]]]; try discriminate; injection D as <- <-.
    + cbn [prows at2]. assert (Lv : List.length v = n) by lia. split; [rewrite map_length; exact Lv|]. intros i Hi.
      assert (NI : nth i (map (fun u : R => [u]) v) [] = [nth i v 0%R]).
      { rewrite (nth_indep _ [] [0%R]) by (rewrite map_length; lia). apply (map_nth (fun u : R => [u]) v 0%R). }
      rewrite NI. split; [reflexivity|]. intros j Hj. assert (j = 0) as -> by lia.
      rewrite (proj2 (Nat.ltb_lt _ _) Hi). cbn [andb Nat.eqb nth]. apply NE. lia.
    + destruct (RW (fun i j => i * m + j) v L) as [R1 R2]; [intros; nia|]. split; [exact R1|]. intros i Hi.
      destruct (R2 i Hi) as [R3 R4]. split; [exact R3|]. intros j Hj. cbn [at2].
      rewrite (proj2 (Nat.ltb_lt _ _) Hi), (proj2 (Nat.ltb_lt _ _) Hj). exact (R4 j Hj).
  - injection D as <- <-. destruct (RW (fun i j => j * r + i) e L) as [R1 R2]; [intros; nia|]. split; [exact R1|]. intros i Hi.
    destruct (R2 i Hi) as [R3 R4]. split; [exact R3|]. intros j Hj. cbn [at2].
    rewrite (proj2 (Nat.ltb_lt _ _) Hi), (proj2 (Nat.ltb_lt _ _) Hj). exact (R4 j Hj).
Qed.
Print Assumptions C65_rows.

(** Non-vacuity: a tree with a scalar, a vector and a matrix, and what a compiled function sees of it. *)
Definition cp_sample : ptree (pval nat) :=
  Node [("m", PNum (LScalar 1)); ("w", PNum (LArray [2; 3] [2; 3; 4; 5; 6; 7]))] [("b", Node [("v", PNum (LArray [3] [8; 9; 10]))] [])].
Example C65_nonvacuous : uniq_p cp_sample = true /\ named_p cp_sample = true /\
  Forall numpy (leaf_values cp_sample) /\ Forall well_formed (leaf_values cp_sample) /\
  (exists t', compiled_params (PNum (LScalar 0)) cp_sample cp_sample = Ok t' /\
     exists y, nth_error (leaf_values t') 1 = Some y /\ dims y = Some (2, 3) /\
       map (fun j => at2 y 0 j) [0; 1; 2] = [Some 2; Some 4; Some 6] /\ map (fun j => at2 y 1 j) [0; 1; 2] = [Some 3; Some 5; Some 7]) /\
  no_matrix (PNum (LArray [3] [8; 9; 10])) /\ ~ no_matrix (PNum (LArray [2; 3] [2; 3; 4; 5; 6; 7])).
Proof.
  assert (F : leaf_values cp_sample = [PNum (LScalar 1); PNum (LArray [2; 3] [2; 3; 4; 5; 6; 7]); PNum (LArray [3] [8; 9; 10])]) by (vm_compute; reflexivity).
  split; [vm_compute; reflexivity|]. split; [vm_compute; reflexivity|]. rewrite F.
  split; [repeat constructor; eexists; reflexivity|].
  split. { repeat constructor; [exists 1, 1|exists 2, 3|exists 3, 1]; (split; [reflexivity|]; split; [lia|reflexivity]). }
  split. { eexists. split; [vm_compute; reflexivity|]. eexists. split; [vm_compute; reflexivity|]. vm_compute. auto. }
  split; [intros p q H; injection H as <- <-; right; reflexivity|]. intros H. destruct (H 2 3 eq_refl); discriminate.
Qed.
