From Verif Require Import Base TreeModel TreeSpec TreeProofs TreeProofs2 TreeProps CpModel CpSpec CpProofs.
From Coq Require Import Lia PeanoNat.
Open Scope nat_scope.
Section P.
Context {A : Type}.
Implicit Types (x y : pval A).

Lemma leaf_values_flat : forall (t : ptree (pval A)), values (flat_of (leaves t)) = leaf_values t.
Proof. intros. apply values_flat_of. Qed.

(** ravel of a numpy tree, and what its unravel does to a CasADi column *)
Lemma ravel_num_cas : forall dummy (t : ptree (pval A)), uniq_p t = true -> named_p t = true ->
  Forall numpy (leaf_values t) ->
  exists unr, ptree_ravel dummy t = Ok (PNum (LArray [List.length (pspec t)] (pspec t)), unr) /\
  (Forall well_formed (leaf_values t) -> forall w, List.length w = List.length (pspec t) ->
   exists t' chunks, unr (PCas (List.length w) 1 w) = Ok t' /\ shape t' = shape t /\ concat chunks = w /\
     map (@List.length A) chunks = map psize (leaf_values t) /\
     leaf_values t' = map (fun xe => as_cas (fst xe) (snd xe)) (combine (leaf_values t) chunks)).
Proof.
  intros dummy t Hu Hn Hnum.
  destruct (ptree_ravel_spec dummy t (PNum (LArray [List.length (pspec t)] (pspec t))) Hu Hn) as (aux & unr & Ef & Er & Hunr).
  { rewrite pravel_dict_num; rewrite leaf_values_flat; [reflexivity|exact Hnum]. }
  exists unr. split; [exact Er|]. intros Hw w Hl.
  destruct (punravel_cas t w Hu Hn Hw Hl) as (d & chunks & E & C1 & C2 & C3 & C4).
  rewrite Hunr, E. cbn [bind].
  destruct (pytree_unflatten _ dummy t aux (values d) _ Hu Hn Ef C4) as (t' & H1 & H2 & H3 & _).
  exists t', chunks. rewrite H1. split; [reflexivity|]. split; [exact H2|]. split; [exact C1|]. split; [exact C2|].
  rewrite H3. exact C3.
Qed.

Lemma chunks_unique : forall (cs ds : list (list A)), map (@List.length A) cs = map (@List.length A) ds ->
  concat cs = concat ds -> cs = ds.
Proof.
  induction cs as [|c cs IH]; intros [|d ds] HL HC; try discriminate; [reflexivity|].
  cbn [map concat] in *. injection HL as H1 H2.
  assert (c = d /\ concat cs = concat ds) as [-> HC2].
  { revert d H1 HC. induction c as [|a c IHc]; intros [|b d] H1 HC; try discriminate; [auto|].
    cbn in HC. injection HC as -> HC. cbn in H1. injection H1 as H1. destruct (IHc d H1 HC) as [-> ->]. auto. }
  f_equal. apply IH; assumption.
Qed.

(** what a compiled function sees *)
Lemma compiled_spec : forall dummy (t0 t : ptree (pval A)), uniq_p t0 = true -> named_p t0 = true ->
  Forall numpy (leaf_values t0) -> Forall well_formed (leaf_values t0) -> Forall numpy (leaf_values t) ->
  shape t = shape t0 -> map pshape (leaf_values t) = map pshape (leaf_values t0) ->
  Forall well_formed (leaf_values t) ->
  exists t', compiled_params dummy t0 t = Ok t' /\ shape t' = shape t /\
    leaf_values t' = map (fun x => as_cas x (els x)) (leaf_values t).
Proof.
  intros dummy t0 t Hu Hn N0 W0 N HS HP W.
  assert (uniq_p t = true) as Hu2 by (eapply shape_uniq; [symmetry; exact HS|exact Hu]).
  assert (named_p t = true) as Hn2 by (rewrite (shape_named _ _ _ _ HS); exact Hn).
  destruct (ravel_num_cas dummy t0 Hu Hn N0) as (unr & E & H).
  destruct (ravel_num_cas dummy t Hu2 Hn2 N) as (unr2 & E2 & _).
  assert (DS : forall a b : list (pval A), Forall numpy a -> Forall numpy b -> Forall well_formed a -> Forall well_formed b ->
            map pshape a = map pshape b -> map psize a = map psize b /\ map dims a = map dims b).
  { induction a as [|u a IH]; intros [|v b] Na Nb Wa Wb HH; try discriminate; [auto|].
    cbn [map] in *. injection HH as H1 H2. inversion Na as [|? ? [lu ->] Na2]; subst. inversion Nb as [|? ? [lv ->] Nb2]; subst.
    inversion Wa as [|? ? Wu Wa2]; subst. inversion Wb as [|? ? Wv Wb2]; subst.
    assert (D : dims (PNum lu) = dims (PNum lv)).
    { destruct lu as [a0|s e], lv as [b0|s' e']; cbn in H1 |- *; subst; try reflexivity.
      - destruct Wv as [p [q [Q _]]]. cbn in Q. discriminate.
      - destruct Wu as [p [q [Q _]]]. cbn in Q. discriminate. }
    destruct Wu as [p [q [D1 [_ S1]]]], Wv as [p' [q' [D2 [_ S2]]]]. rewrite D in D1. rewrite D1 in D2. injection D2 as <- <-.
    destruct (IH b Na2 Nb2 Wa2 Wb2 H2) as [I1 I2]. split; f_equal; auto. congruence. }
  destruct (DS _ _ N N0 W W0 HP) as [HZ HD].
  assert (HL : List.length (pspec t) = List.length (pspec t0)).
  { unfold pspec. rewrite !length_concat_sum, !map_els. congruence. }
  destruct (H W0 (pspec t) HL) as (t' & chunks & U & S1 & C1 & C2 & C3).
  exists t'. unfold compiled_params. rewrite E, E2. cbn [bind fst snd lsize lravel psize]. rewrite HL, Nat.eqb_refl, <- HL.
  split; [exact U|]. split; [congruence|]. rewrite C3.
  assert (chunks = map els (leaf_values t)) as ->.
  { apply chunks_unique; [rewrite map_els; congruence|exact C1]. }
  clear - HD. revert HD. generalize (leaf_values t) as a, (leaf_values t0) as b.
  induction a as [|u a IH]; intros [|v b] HD; try discriminate; [reflexivity|]. cbn [map combine fst snd] in *.
  injection HD as H1 H2. f_equal; [unfold as_cas; rewrite H1; reflexivity|apply IH; exact H2].
Qed.

(** elements *)
Lemma as_cas_scrambled : forall x, numpy x -> well_formed x -> scrambled x (as_cas x (els x)).
Proof.
  intros x [l ->] [p [q [D [P L]]]]. exists p, q. split; [exact D|]. unfold as_cas. rewrite D. split; [reflexivity|].
  intros i j Hi Hj. cbn [at2]. rewrite (proj2 (Nat.ltb_lt _ _) Hi), (proj2 (Nat.ltb_lt _ _) Hj). cbn [andb].
  assert (Q0 : q <> 0) by nia.
  assert (Hk : j * p + i < p * q) by nia.
  destruct l as [a|s v]; cbn [dims psize lsize at2 lravel els] in D, L |- *.
  - injection D as <- <-. assert (j = 0) as -> by lia. assert (i = 0) as -> by lia. reflexivity.
  - destruct s as [|n [|m [|k s]]]; try discriminate; injection D as <- <-.
    + assert (j = 0) as -> by lia. rewrite Nat.div_1_r, Nat.mod_1_r. cbn [Nat.mul Nat.add].
      rewrite (proj2 (Nat.ltb_lt _ _) Hi). reflexivity.
    + rewrite (proj2 (Nat.ltb_lt _ n)) by (apply Nat.div_lt_upper_bound; lia).
      rewrite (proj2 (Nat.ltb_lt _ m)) by (apply Nat.mod_upper_bound; lia). cbn [andb]. f_equal.
      rewrite (Nat.mul_comm ((j * n + i) / m)). symmetry. rewrite <- Nat.div_mod; lia.
Qed.

Lemma scrambled_thin : forall x y, numpy x -> casadi y -> no_matrix x -> scrambled x y -> same x y.
Proof.
  intros x y [l ->] [r [c [e ->]]] NM [p [q [D [D2 H]]]]. split; [congruence|]. intros i j.
  cbn [dims] in D2. injection D2 as -> ->.
  destruct (Nat.ltb_spec i p) as [Hi|Hi]; [destruct (Nat.ltb_spec j q) as [Hj|Hj]|].
  - rewrite (H i j Hi Hj). f_equal.
    + destruct (NM p q D) as [-> | ->]; [|rewrite Nat.div_1_r; assert (j = 0) as -> by lia; lia]. assert (i = 0) as -> by lia. symmetry. apply Nat.div_small. lia.
    + destruct (NM p q D) as [-> | ->]; [|rewrite Nat.mod_1_r; lia]. rewrite Nat.mod_small; lia.
  - cbn [at2]. rewrite (proj2 (Nat.ltb_ge _ _) Hj), Bool.andb_false_r.
    destruct l as [a|s v]; cbn [dims at2] in D |- *.
    + injection D as <- <-. destruct (Nat.eqb_spec j 0); [lia|]. now rewrite Bool.andb_false_r.
    + destruct s as [|n [|m [|k s]]]; try discriminate; injection D as <- <-.
      * destruct (Nat.eqb_spec j 0); [lia|]. now rewrite Bool.andb_false_r.
      * rewrite (proj2 (Nat.ltb_ge _ _) Hj). now rewrite Bool.andb_false_r.
  - cbn [at2]. rewrite (proj2 (Nat.ltb_ge _ _) Hi). cbn [andb].
    destruct l as [a|s v]; cbn [dims at2] in D |- *.
    + injection D as <- <-. destruct (Nat.eqb_spec i 0); [lia|]. reflexivity.
    + destruct s as [|n [|m [|k s]]]; try discriminate; injection D as <- <-;
      rewrite (proj2 (Nat.ltb_ge _ _) Hi); reflexivity.
Qed.

(** CasADi values ravel and unravel to themselves *)
Lemma ravel_cas_cas : forall dummy (t : ptree (pval A)), uniq_p t = true -> named_p t = true ->
  leaf_values t <> [] -> Forall casadi (leaf_values t) -> Forall well_formed (leaf_values t) ->
  exists v unr, ptree_ravel dummy t = Ok (v, unr) /\ v = PCas (List.length (pspec t)) 1 (pspec t) /\ unr v = Ok t.
Proof.
  intros dummy t Hu Hn Hne Hc Hw.
  destruct (ptree_ravel_spec dummy t (PCas (List.length (pspec t)) 1 (pspec t)) Hu Hn) as (aux & unr & Ef & Er & Hunr).
  { rewrite pravel_dict_cas; rewrite ?leaf_values_flat; [reflexivity| |exact Hc].
    intros E. apply Hne. rewrite <- leaf_values_flat, E. reflexivity. }
  eexists; exists unr. split; [exact Er|]. split; [reflexivity|].
  destruct (punravel_cas t (pspec t) Hu Hn Hw eq_refl) as (d & chunks & E & C1 & C2 & C3 & C4).
  rewrite Hunr, E. cbn [bind].
  destruct (pytree_unflatten _ dummy t aux (values d) _ Hu Hn Ef C4) as (t' & H1 & H2 & H3 & _).
  rewrite H1. f_equal. apply shape_leaf_values_eq; [exact H2|]. rewrite H3, C3.
  assert (chunks = map els (leaf_values t)) as ->.
  { apply chunks_unique; [rewrite map_els; congruence|exact C1]. }
  clear - Hc. induction Hc as [|u a [r [c [e ->]]] Ha IH]; [reflexivity|]. cbn [map combine fst snd]. f_equal. exact IH.
Qed.

(** numpy values ravel and unravel to themselves, too *)
Lemma ravel_num_num : forall dummy (t : ptree (pval A)), uniq_p t = true -> named_p t = true ->
  Forall (fun x => exists l, x = PNum l /\ leaf_ok l = true) (leaf_values t) ->
  exists v unr, ptree_ravel dummy t = Ok (v, unr) /\ v = PNum (LArray [List.length (pspec t)] (pspec t)) /\ unr v = Ok t.
Proof.
  intros dummy t Hu Hn Hok.
  assert (Hnum : Forall numpy (leaf_values t)).
  { eapply Forall_impl; [|exact Hok]. intros x [l [-> _]]. exists l. reflexivity. }
  destruct (ptree_ravel_spec dummy t (PNum (LArray [List.length (pspec t)] (pspec t))) Hu Hn) as (aux & unr & Ef & Er & Hunr).
  { rewrite pravel_dict_num; rewrite leaf_values_flat; [reflexivity|exact Hnum]. }
  eexists; exists unr. split; [exact Er|]. split; [reflexivity|]. rewrite Hunr.
  assert (HD : exists d, punravel_dict (flat_of (leaves t)) (PNum (LArray [List.length (pspec t)] (pspec t))) = Ok d /\ values d = leaf_values t).
  { unfold punravel_dict. destruct (flat_of (leaves t)) as [|kv0 rest] eqn:E.
    - exists []. split; [reflexivity|]. rewrite <- leaf_values_flat, E. reflexivity.
    - rewrite <- E. rewrite values_flat_of, keys_flat_of. fold (leaf_values t). fold (leaf_locs t).
      cbn [psplit is_cas bind]. unfold pspec. rewrite <- map_els.
      assert (Hne : leaf_values t <> []) by (unfold leaf_values; destruct (leaves t); discriminate).
      rewrite split_sizes_concat by (destruct (leaf_values t); [congruence|discriminate]).
      assert (M : mapM (fun cs : list A * list nat => fmap PNum (reconstruct (fst cs) (snd cs)))
                (combine (map els (leaf_values t)) (map pshape (leaf_values t))) = Ok (leaf_values t)).
      { clear - Hok. induction Hok as [|u a [l [-> Hl]] Ha IH]; [reflexivity|]. cbn [map combine mapM fst snd els pshape].
        rewrite (reconstruct_ok l Hl). cbn [fmap bind]. rewrite IH. reflexivity. }
      rewrite M. cbn [fmap]. eexists; split; [reflexivity|]. rewrite dict_of_list_nodup.
      + unfold values. apply combine_map_snd. unfold leaf_locs, leaf_values. now rewrite !map_length.
      + rewrite combine_map_fst by (unfold leaf_locs, leaf_values; now rewrite !map_length).
        pose proof (NoDup_flat _ t Hu Hn) as Hd. rewrite keys_flat_of in Hd. exact Hd. }
  destruct HD as [d [E Ev]]. rewrite E. cbn [bind]. rewrite Ev.
  destruct (pytree_unflatten _ dummy t aux (leaf_values t) _ Hu Hn Ef eq_refl) as (t' & H1 & H2 & H3 & _).
  rewrite H1. f_equal. now apply shape_leaf_values_eq.
Qed.
End P.
