(** Property theorems C01-C06 (parameter/config trees).  Statements only. *)
From Verif Require Import Base TreeModel TreeSpec TreeProofs TreeProofs2 TreeProofs3.

(** A sample tree: {"k": 1, "m": 2, children: {"aero": {"k": 3, children {"base": {"c": 4}}}, "tire": {}}} *)
Definition sample : ptree nat :=
  Node [("k", 1); ("m", 2)]
       [("aero", Node [("k", 3)] [("base", Node [("c", 4)] [])]); ("tire", Node [] [])].

(** *** C01 *)
Theorem C01_dict_roundtrip_param : forall V (t : ptree V), uniq_p t = true ->
  from_dict (to_dict t) = Ok t.
Proof. intros V t. exact (from_to_dict _ _ t). Qed.
Print Assumptions C01_dict_roundtrip_param.

Theorem C01_dict_roundtrip_config : forall V (t : tree V), uniq_c t = true ->
  from_dict (to_dict t) = Ok t.
Proof. intros V t. exact (from_to_dict _ _ t). Qed.
Print Assumptions C01_dict_roundtrip_config.

(** Every nested dictionary {"data":..,"children":{..}} is the [to_dict] of the tree built from it. *)
Theorem C01_dict_roundtrip_back : forall D (p : pyval D), dict_ok p = true ->
  exists t, from_dict p = Ok t /\ to_dict t = p.
Proof. intros D p H. destruct (dict_ok_to D p H) as (t & H1 & H2 & _). exact (ex_intro _ t (conj H1 H2)). Qed.
Print Assumptions C01_dict_roundtrip_back.

Example C01_nonvacuous : uniq_p sample = true /\ dict_ok (to_dict sample) = true /\
  from_dict (to_dict sample) = Ok sample.
Proof. repeat split; vm_compute; reflexivity. Qed.

(** *** C02 *)
Theorem C02_flat_keys : forall V (t : ptree V), uniq_p t = true -> named_p t = true ->
  make_flat_dict "" t = map (fun lv => (dotted (fst lv), snd lv)) (leaves t) /\
  NoDup (keys (make_flat_dict "" t)).
Proof.
  intros V t Hu Hn. rewrite make_flat_dict_root by assumption.
  exact (conj eq_refl (NoDup_flat V t Hu Hn)).
Qed.
Print Assumptions C02_flat_keys.

Theorem C02_flat_roundtrip : forall V (dummy : V) t, uniq_p t = true -> named_p t = true ->
  exists flat td, to_flat_dict dummy t = Ok (flat, td) /\ from_flat_dict td flat = Ok t.
Proof. exact flat_roundtrip. Qed.
Print Assumptions C02_flat_roundtrip.

(** Rebuilding with other values: same shape, exactly those values at the same locations. *)
Theorem C02_flat_replace : forall V (dummy : V) t vals, uniq_p t = true -> named_p t = true ->
  List.length vals = List.length (leaves t) ->
  exists td, make_tree_def dummy t = Ok td /\
  exists t', from_flat_dict td (map (fun lv => (dotted (fst lv), snd lv)) (combine (leaf_locs t) vals)) = Ok t' /\
    shape t' = shape t /\ leaves t' = combine (leaf_locs t) vals.
Proof. exact flat_roundtrip_general. Qed.
Print Assumptions C02_flat_replace.

Theorem C02_config_flat_roundtrip : forall V (dummy : V) (t : tree V), uniq_c t = true -> named_c t = true ->
  cmake_flat_dict "" t = map (fun pd => (join dot (fst pd), snd pd)) (nodes t) /\
  exists td, cmake_tree_def dummy t = Ok td /\ cfrom_flat_dict td (cmake_flat_dict "" t) = Ok t.
Proof.
  intros V dummy t Hu Hn. exact (conj (cmake_flat_dict_root t Hu Hn) (cflat_roundtrip dummy t Hu Hn)).
Qed.
Print Assumptions C02_config_flat_roundtrip.

Example C02_nonvacuous : uniq_p sample = true /\ named_p sample = true /\
  make_flat_dict "" sample = [("k", 1); ("m", 2); ("aero.k", 3); ("aero.base.c", 4)].
Proof. repeat split; vm_compute; reflexivity. Qed.
Example C02_config_nonvacuous :
  let t := Node "veh" [("aero", Node "GP" [("base", Node "C" [])]); ("tire", Node "P" [])] in
  uniq_c t = true /\ named_c t = true /\
  cmake_flat_dict "" t = [("", "veh"); ("aero", "GP"); ("aero.base", "C"); ("tire", "P")].
Proof. repeat split; vm_compute; reflexivity. Qed.

(** Without the condition on names: a parameter key containing "." breaks the round trip. *)
Theorem C02_dotted_key_refuted : exists t : ptree nat, uniq_p t = true /\
  to_flat_dict 0 t = Raise KeyError.
Proof. exists (Node [("a.b", 1)] []). split; vm_compute; reflexivity. Qed.
Print Assumptions C02_dotted_key_refuted.
(** ... or silently merges two parameters into one flat entry. *)
Theorem C02_dotted_key_merge_refuted : exists t : ptree nat, uniq_p t = true /\
  List.length (leaves t) = 2 /\ exists flat td, to_flat_dict 0 t = Ok (flat, td) /\
  List.length flat = 1.
Proof.
  exists (Node [("a.b", 1)] [("a", Node [("b", 2)] [])]).
  split; [vm_compute; reflexivity|]. split; [vm_compute; reflexivity|].
  do 2 eexists. split; vm_compute; reflexivity.
Qed.
Print Assumptions C02_dotted_key_merge_refuted.

(** *** C03 *)
Theorem C03_flatten_unflatten : forall V (dummy : V) t, uniq_p t = true -> named_p t = true ->
  exists ls aux, tree_flatten dummy t = Ok (ls, aux) /\ ls = leaf_values t /\ tree_unflatten aux ls = Ok t.
Proof.
  intros V dummy t Hu Hn. destruct (pytree_roundtrip V dummy t Hu Hn) as (ls & aux & H1 & H2).
  destruct (flatten_spec V dummy t Hu Hn) as (td & _ & E).
  assert (ls = leaf_values t) as El by congruence.
  exact (ex_intro _ ls (ex_intro _ aux (conj H1 (conj El H2)))).
Qed.
Print Assumptions C03_flatten_unflatten.

Theorem C03_unflatten_flatten : forall V (dummy : V) t aux vals ls, uniq_p t = true -> named_p t = true ->
  tree_flatten dummy t = Ok (ls, aux) -> List.length vals = List.length ls ->
  exists t', tree_unflatten aux vals = Ok t' /\ shape t' = shape t /\ leaf_values t' = vals /\
    tree_flatten dummy t' = Ok (vals, aux).
Proof. exact pytree_unflatten. Qed.
Print Assumptions C03_unflatten_flatten.

(** aux data depends on the shape only: no recompilation when values change *)
Theorem C03_aux_shape_only : forall V (dummy : V) t t2 ls ls2 aux aux2,
  uniq_p t = true -> named_p t = true -> shape t2 = shape t ->
  tree_flatten dummy t = Ok (ls, aux) -> tree_flatten dummy t2 = Ok (ls2, aux2) -> aux2 = aux.
Proof.
  intros V dummy t t2 ls ls2 aux aux2 Hu Hn Hs H1 H2.
  assert (uniq_p t2 = true) as Hu2 by (eapply shape_uniq; [symmetry; exact Hs | exact Hu]).
  assert (named_p t2 = true) as Hn2 by (rewrite (shape_named _ _ _ _ Hs); exact Hn).
  destruct (flatten_spec V dummy t Hu Hn) as (td & E1 & F1).
  destruct (flatten_spec V dummy t2 Hu2 Hn2) as (td2 & E2 & F2).
  rewrite (make_tree_def_shape V dummy t t2 Hu Hn Hs) in E2.
  rewrite (shape_leaf_locs _ _ _ _ Hs) in F2. congruence.
Qed.
Print Assumptions C03_aux_shape_only.

Example C03_nonvacuous : uniq_p sample = true /\ named_p sample = true /\
  exists aux t', tree_flatten 0 sample = Ok ([1; 2; 3; 4], aux) /\
    tree_unflatten aux [10; 20; 30; 40] = Ok t' /\ leaf_values t' = [10; 20; 30; 40].
Proof. do 2 (split; [vm_compute; reflexivity|]). do 2 eexists. repeat split; vm_compute; reflexivity. Qed.

(** *** C04 *)
Theorem C04_ravel_roundtrip : forall A dummy (t : ptree (leaf A)), uniq_p t = true -> named_p t = true ->
  forallb leaf_ok (leaf_values t) = true ->
  exists v unravel, tree_ravel dummy t = Ok (v, unravel) /\
    v = concat (map lravel (leaf_values t)) /\ unravel v = Ok t /\
    (forall arr, List.length arr = List.length v ->
       exists t' unr', unravel arr = Ok t' /\ shape t' = shape t /\
         map lshape (leaf_values t') = map lshape (leaf_values t) /\
         tree_ravel dummy t' = Ok (arr, unr')).
Proof. exact @ravel_unravel. Qed.
Print Assumptions C04_ravel_roundtrip.

Definition ravel_sample : ptree (leaf nat) :=
  Node [("a", LScalar 1); ("w", LArray [2; 2] [2; 3; 4; 5])] [("b", Node [("v", LArray [3] [6; 7; 8])] [])].
Example C04_nonvacuous : uniq_p ravel_sample = true /\ named_p ravel_sample = true /\
  forallb leaf_ok (leaf_values ravel_sample) = true /\
  fmap fst (tree_ravel (LScalar 0) ravel_sample) = Ok [1; 2; 3; 4; 5; 6; 7; 8].
Proof. repeat split; vm_compute; reflexivity. Qed.

(** An array of shape (1,) comes back as a scalar. *)
Theorem C04_size_one_refuted : exists (t t' : ptree (leaf nat)), uniq_p t = true /\ named_p t = true /\
  bind (tree_ravel (LScalar 0) t) (fun vu => snd vu (fst vu)) = Ok t' /\ t' <> t /\
  leaf_values t = [LArray [1] [7]] /\ leaf_values t' = [LScalar 7].
Proof.
  exists (Node [("a", LArray [1] [7])] []), (Node [("a", LScalar 7)] []).
  repeat split; try (vm_compute; reflexivity). discriminate.
Qed.
Print Assumptions C04_size_one_refuted.
(** A leaf of size 0 cannot be unraveled at all. *)
Theorem C04_size_zero_refuted : exists t : ptree (leaf nat), uniq_p t = true /\ named_p t = true /\
  bind (tree_ravel (LScalar 0) t) (fun vu => snd vu (fst vu)) = Raise IndexError.
Proof. exists (Node [("a", LArray [0] [])] []). repeat split; vm_compute; reflexivity. Qed.
Print Assumptions C04_size_zero_refuted.
(** A vector that is too short can be accepted silently, changing a leaf's shape. *)
Theorem C04_short_vector_refuted : exists (t t' : ptree (leaf nat)), leaf_values t = [LArray [3] [1; 2; 3]] /\
  bind (tree_ravel (LScalar 0) t) (fun vu => snd vu [9]) = Ok t' /\ leaf_values t' = [LScalar 9].
Proof.
  exists (Node [("a", LArray [3] [1; 2; 3])] []), (Node [("a", LScalar 9)] []).
  repeat split; vm_compute; reflexivity.
Qed.
Print Assumptions C04_short_vector_refuted.

(** *** C05 *)
Theorem C05_set_get : forall V p (v : V) t t', set_param dot p v t = Ok t' -> get_param dot p t' = Ok v.
Proof. exact set_get_param. Qed.
Print Assumptions C05_set_get.

Theorem C05_set_other : forall V p q (v : V) t t', set_param dot p v t = Ok t' -> p <> q ->
  starts_dot p = false -> starts_dot q = false -> get_param dot q t' = get_param dot q t.
Proof. exact set_get_param_other. Qed.
Print Assumptions C05_set_other.

(** The complete effect: the parameters after [set_param] are the old ones with one replaced/added. *)
Theorem C05_set_effect : forall V l (v : V) t t', uniq_p t = true -> named_p t = true -> loc_ok l = true ->
  set_param dot (dotted l) v t = Ok t' ->
  forall l2 v2, In (l2, v2) (leaves t') <-> (l2 = l /\ v2 = v) \/ (l2 <> l /\ In (l2, v2) (leaves t)).
Proof. exact set_param_leaves. Qed.
Print Assumptions C05_set_effect.

Theorem C05_set_existing_keeps_shape : forall V p (v v0 : V) t, get_param dot p t = Ok v0 ->
  exists t', set_param dot p v t = Ok t' /\ shape t' = shape t.
Proof. exact get_existing_set_shape. Qed.
Print Assumptions C05_set_existing_keeps_shape.

Theorem C05_get_reads_leaf : forall V l (t : ptree V) v, uniq_p t = true -> named_p t = true -> loc_ok l = true ->
  (get_param dot (dotted l) t = Ok v <-> In (l, v) (leaves t)).
Proof. exact get_param_dotted. Qed.
Print Assumptions C05_get_reads_leaf.

(** Success exactly when the chain of child names exists; otherwise KeyError. *)
Theorem C05_set_errors : forall V ns k (v : V) t, loc_ok (ns, k) = true ->
  ((exists t', set_param dot (dotted (ns, k)) v t = Ok t') <-> (exists n, walk ns t = Ok n)) /\
  (forall e, set_param dot (dotted (ns, k)) v t = Raise e -> e = KeyError).
Proof.
  intros V ns k v t H. exact (conj (set_param_ok_iff V ns k v t H) (set_param_err V dot _ v t)).
Qed.
Print Assumptions C05_set_errors.

Example C05_nonvacuous : exists t', set_param dot "aero.base.c" 99 sample = Ok t' /\
  get_param dot "aero.base.c" t' = Ok 99 /\ get_param dot "aero.k" t' = Ok 3 /\
  starts_dot "aero.base.c" = false /\ loc_ok (["aero"; "base"], "c") = true /\
  dotted (["aero"; "base"], "c") = "aero.base.c".
Proof. eexists. split; [vm_compute; reflexivity|]. repeat split; vm_compute; reflexivity. Qed.

(** A non-default delimiter only works for paths with at most one child name. *)
Theorem C05_delimiter_refuted : exists (t : ptree nat) v, get_param dot "a.b.k" t = Ok v /\
  get_param "/"%char "a/b/k" t = Raise KeyError /\ set_param "/"%char "a/b/k" v t = Raise KeyError.
Proof. exists (Node [] [("a", Node [] [("b", Node [("k", 5)] [])])]), 5. repeat split; vm_compute; reflexivity. Qed.
Print Assumptions C05_delimiter_refuted.

(** A leading "." is silently ignored: two different strings name one parameter. *)
Theorem C05_leading_dot_refuted : exists (t t' : ptree nat), set_param dot ".k" 7 t = Ok t' /\
  get_param dot "k" t = Ok 1 /\ get_param dot "k" t' = Ok 7.
Proof. exists (Node [("k", 1)] []), (Node [("k", 7)] []). repeat split; vm_compute; reflexivity. Qed.
Print Assumptions C05_leading_dot_refuted.

(** *** C06 *)
Theorem C06_replace_subtree : forall D ns n (s t : tree D), forallb name_ok (ns ++ [n]) = true ->
  match walk (ns ++ [n]) t with
  | Raise _ => replace_subtree dot (join dot (ns ++ [n])) s t = Raise KeyError
  | Ok _ => exists t', replace_subtree dot (join dot (ns ++ [n])) s t = Ok t' /\
      walk (ns ++ [n]) t' = Ok s /\
      (forall q, (forall r, q <> (ns ++ [n]) ++ r) -> (forall r, ns ++ [n] <> q ++ r) ->
         walk q t' = walk q t) /\
      (forall q m r node, q ++ m :: r = ns ++ [n] -> walk q t = Ok node ->
         exists node', walk q t' = Ok node' /\ tdata node' = tdata node /\
            keys (tchildren node') = keys (tchildren node))
  end.
Proof. exact replace_subtree_spec. Qed.
Print Assumptions C06_replace_subtree.

Example C06_nonvacuous : forallb name_ok (["aero"] ++ ["base"]) = true /\
  (exists x, walk ["aero"; "base"] sample = Ok x) /\
  replace_subtree dot "aero.nothere" (Node [] []) sample = Raise KeyError /\
  bind (replace_subtree dot "aero.base" (Node [("z", 0)] []) sample) (get_param dot "aero.base.z") = Ok 0.
Proof. split; [reflexivity|]. split; [eexists; vm_compute; reflexivity|]. split; vm_compute; reflexivity. Qed.
