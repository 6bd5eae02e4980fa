From Verif Require Import Base TreeModel TreeSpec TreeProofs TreeProofs2 TreeProps CpModel CpSpec.
From Coq Require Import Lia PeanoNat.
Open Scope nat_scope.
Section P.
Context {A : Type}.
Implicit Types (x y : pval A).

Definition els x : list A := match x with PNum l => lravel l | PCas _ _ e => e end.
Lemma els_length : forall x, List.length (els x) = psize x.
Proof. intros [l|r c e]; cbn; [apply lravel_length|reflexivity]. Qed.
(** the CasADi matrix that has the dimensions of x and the elements e *)
Definition as_cas (x : pval A) (e : list A) : pval A :=
  match dims x with Some (p, q) => PCas p q e | None => PCas 0 0 e end.

Lemma cas_reconstruct_ok : forall x e, well_formed x -> List.length e = psize x ->
  cas_reconstruct e (pshape x) = Ok (as_cas x e).
Proof.
  intros x e [p [q [D [P L]]]] Le. unfold as_cas. rewrite D. unfold cas_reconstruct, cas_reshape.
  rewrite L in Le.
  destruct (Nat.ltb_spec 1 (List.length e)) as [H|H].
  - destruct x as [[a|s v]|r c v]; cbn in D, L |- *.
    + injection D as <- <-. lia.
    + destruct s as [|n [|m [|k s]]]; try discriminate; injection D as <- <-.
      * rewrite (proj2 (Nat.eqb_eq _ _)) by lia. reflexivity.
      * rewrite (proj2 (Nat.eqb_eq _ _)) by lia. reflexivity.
    + injection D as <- <-. rewrite (proj2 (Nat.eqb_eq _ _)) by lia. reflexivity.
  - assert (E : p * q = 1) by lia. assert (p = 1 /\ q = 1) as [-> ->] by (apply Nat.eq_mul_1; exact E).
    destruct e as [|a [|b e]]; cbn in Le; try lia. reflexivity.
Qed.

Lemma mapM_cas : forall (vs : list (pval A)) chunks, Forall well_formed vs ->
  map (@List.length A) chunks = map psize vs ->
  mapM (fun cs => cas_reconstruct (fst cs) (snd cs)) (combine chunks (map pshape vs)) =
  Ok (map (fun xe => as_cas (fst xe) (snd xe)) (combine vs chunks)).
Proof.
  induction vs as [|v vs IH]; intros [|c cs] Hf H; try discriminate; [reflexivity|].
  cbn [map combine mapM fst snd] in *. injection H as H1 H2. inversion Hf as [|? ? Hv Hr]; subst.
  rewrite (cas_reconstruct_ok v c Hv H1). cbn [bind]. rewrite IH by assumption. reflexivity.
Qed.

Definition pspec (t : ptree (pval A)) : list A := concat (map els (leaf_values t)).

Lemma map_els : forall vs, map (@List.length A) (map els vs) = map psize vs.
Proof. intros. rewrite map_map. apply map_ext. intros. apply els_length. Qed.

Lemma pflat_again : forall (t : ptree (pval A)), uniq_p t = true -> named_p t = true ->
  dict_of_list (combine (map dotted (leaf_locs t)) (leaf_values t)) = flat_of (leaves t).
Proof.
  intros t Hu Hn. unfold leaf_locs, leaf_values. rewrite combine_map_l, combine_split_map.
  rewrite dict_of_list_nodup; [reflexivity|]. exact (NoDup_flat _ t Hu Hn).
Qed.

Lemma mapM_pravel_num : forall vs, Forall numpy vs ->
  mapM pravel vs = Ok (map (fun x => PNum (LArray [psize x] (els x))) vs).
Proof.
  induction vs as [|v vs IH]; intros H; [reflexivity|]. inversion H as [|? ? [l ->] Hr]; subst.
  cbn [mapM pravel bind map psize els]. rewrite IH by assumption. reflexivity.
Qed.
Lemma mapM_pravel_cas : forall vs, Forall casadi vs ->
  mapM pravel vs = Ok (map (fun x => PCas (List.length (els x)) 1 (els x)) vs).
Proof.
  induction vs as [|v vs IH]; intros H; [reflexivity|]. inversion H as [|? ? [r [c [e ->]]] Hr]; subst.
  cbn [mapM pravel bind map psize els]. unfold cas_reshape. rewrite Nat.mul_1_r, Nat.eqb_refl. cbn [bind].
  rewrite IH by assumption. reflexivity.
Qed.
Lemma mapM_num_raveled : forall vs : list (pval A),
  mapM (fun x => match x with PNum v => Ok (lravel v) | PCas _ _ _ => Raise TypeError end)
       (map (fun x => PNum (LArray [psize x] (els x))) vs) = Ok (map els vs).
Proof. induction vs as [|v vs IH]; [reflexivity|]. cbn [map mapM bind lravel]. rewrite IH. reflexivity. Qed.

Lemma pravel_dict_num : forall d : dict (pval A), Forall numpy (values d) ->
  pravel_dict d = Ok (PNum (LArray [List.length (concat (map els (values d)))] (concat (map els (values d))))).
Proof.
  intros [|[k v] d] H; [reflexivity|]. unfold pravel_dict. rewrite mapM_pravel_num by exact H. cbn [bind].
  cbn [values map snd] in H |- *. inversion H as [|? ? [l E] Hr]; subst.
  unfold pconcat. rewrite <- (map_cons (fun x => PNum (LArray [psize x] (els x))) (PNum l) (map snd d)).
  rewrite mapM_num_raveled. reflexivity.
Qed.
Lemma pravel_dict_cas : forall d : dict (pval A), d <> [] -> Forall casadi (values d) ->
  pravel_dict d = Ok (PCas (List.length (concat (map els (values d)))) 1 (concat (map els (values d)))).
Proof.
  intros [|[k v] d] N H; [congruence|]. unfold pravel_dict. rewrite mapM_pravel_cas by exact H. cbn [bind].
  cbn [values map snd] in H |- *. inversion H as [|? ? [r [c [e E]]] Hr]; subst. unfold pconcat. cbn [map els].
  rewrite map_map. cbn [els]. reflexivity.
Qed.

Lemma sum_removelast : forall l, fold_right Nat.add 0 (removelast l) <= TreeProofs2.sum l.
Proof.
  induction l as [|n l IH]; [cbn; lia|]. destruct l as [|m l]; [cbn; lia|].
  change (removelast (n :: m :: l)) with (n :: removelast (m :: l)). cbn [fold_right].
  change (TreeProofs2.sum (n :: m :: l)) with (n + TreeProofs2.sum (m :: l)). lia.
Qed.

(** unraveling a CasADi column with the right number of elements *)
Lemma punravel_cas : forall (t : ptree (pval A)) w, uniq_p t = true -> named_p t = true ->
  Forall well_formed (leaf_values t) -> List.length w = List.length (pspec t) ->
  exists (d : dict (pval A)) chunks, punravel_dict (flat_of (leaves t)) (PCas (List.length w) 1 w) = Ok d /\
    concat chunks = w /\ map (@List.length A) chunks = map psize (leaf_values t) /\
    values d = map (fun xe => as_cas (fst xe) (snd xe)) (combine (leaf_values t) chunks) /\
    List.length (values d) = List.length (leaf_values t).
Proof.
  intros t w Hu Hn Hw Hl. unfold punravel_dict.
  destruct (flat_of (leaves t)) as [|kv0 rest] eqn:E.
  - exists [], []. destruct (leaves t) eqn:El; [|discriminate].
    unfold pspec, leaf_values in *. rewrite El in *. cbn in *. destruct w; [auto|discriminate].
  - rewrite <- E. rewrite values_flat_of, keys_flat_of. fold (leaf_values t). fold (leaf_locs t).
    assert (Hne : leaf_values t <> []) by (unfold leaf_values; destruct (leaves t); discriminate).
    assert (HS : List.length w = TreeProofs2.sum (map psize (leaf_values t))).
    { rewrite Hl. unfold pspec. rewrite length_concat_sum, map_els. reflexivity. }
    cbn [psplit is_cas]. rewrite (proj2 (Nat.leb_le _ _)) by (rewrite HS; apply sum_removelast).
    cbn [Nat.eqb bind].
    destruct (split_sizes_spec (map psize (leaf_values t)) w) as [H1 H2].
    { destruct (leaf_values t); [congruence|discriminate]. }
    { exact HS. }
    rewrite (mapM_cas _ _ Hw H2). cbn [fmap].
    set (ws := map _ (combine (leaf_values t) _)).
    assert (Lw : List.length ws = List.length (leaf_values t)).
    { unfold ws. rewrite map_length, combine_length. apply (f_equal (@List.length _)) in H2.
      rewrite !map_length in H2. lia. }
    assert (Lk : List.length (map dotted (leaf_locs t)) = List.length ws).
    { rewrite Lw. unfold leaf_locs, leaf_values. now rewrite !map_length. }
    exists (combine (map dotted (leaf_locs t)) ws), (split_sizes (map psize (leaf_values t)) w).
    split; [|split; [exact H1|split; [exact H2|]]].
    + f_equal. apply dict_of_list_nodup. rewrite combine_map_fst by exact Lk.
      pose proof (NoDup_flat _ t Hu Hn) as Hd. rewrite keys_flat_of in Hd. exact Hd.
    + unfold values. rewrite combine_map_snd by exact Lk. auto.
Qed.

Lemma ptree_ravel_spec : forall dummy (t : ptree (pval A)) v, uniq_p t = true -> named_p t = true ->
  pravel_dict (flat_of (leaves t)) = Ok v ->
  exists aux unr, tree_flatten dummy t = Ok (leaf_values t, aux) /\ ptree_ravel dummy t = Ok (v, unr) /\
    forall arr, unr arr = bind (punravel_dict (flat_of (leaves t)) arr) (fun d => tree_unflatten aux (values d)).
Proof.
  intros dummy t v Hu Hn Hv. destruct (flatten_spec _ dummy t Hu Hn) as (td & _ & Ef).
  eexists; eexists; split; [exact Ef|]. unfold ptree_ravel. rewrite Ef. cbn [bind fst snd].
  rewrite pflat_again by assumption. rewrite Hv. cbn [fmap]. split; [reflexivity|]. reflexivity.
Qed.
End P.
