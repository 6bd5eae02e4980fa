(** Model of lumos/models/tree_utils.py.

    Simplifications (whole file): values are immutable, so [deepcopy] is the identity and
    a method that mutates [self] returns the new tree; delimiters are one character. *)
From Verif Require Import Base.

(** tree_utils.py:27-52 [class Tree]: [_data] and [_children] (a dict).  [D] is the type of
    the node data: a dict of parameters for ParameterTree (169-172), a string for
    ConfigTree (212-214).  [_data_type] is therefore fixed by the type [D]. *)
Inductive tree (D : Type) : Type :=
| Node (data : D) (children : list (string * tree D)).
Arguments Node {D} data children.

(** tree_utils.py:48-50 [data] property *)
Definition tdata {D} (t : tree D) : D := match t with Node d _ => d end.
Definition tchildren {D} (t : tree D) : dict (tree D) := match t with Node _ c => c end.

(** tree_utils.py:52-54 [add_child] *)
Definition add_child {D} (name : string) (s : tree D) (t : tree D) : tree D :=
  match t with Node d c => Node d (dset name s c) end.

(** tree_utils.py:56-57 [get_child]: KeyError when absent *)
Definition get_child {D} (name : string) (t : tree D) : result (tree D) :=
  lookup_err name (tchildren t).

(** tree_utils.py:61-65: the loop over child names *)
Fixpoint walk {D} (names : list string) (t : tree D) : result (tree D) :=
  match names with
  | [] => Ok t
  | n :: r => bind (get_child n t) (walk r)
  end.

(** tree_utils.py:59-67 [_get_subtree]: the names that will be walked *)
Definition subtree_names (delim : ascii) (path : string) : list string :=
  if String.eqb path "" then [] else split delim path.

Definition get_subtree {D} (delim : ascii) (path : string) (t : tree D) : result (tree D) :=
  walk (subtree_names delim path) t.

(** Mutating the node reached by [walk names]: the functional form of
    "t = self._get_subtree(..); t.<mutate>" *)
Fixpoint update_at {D} (names : list string) (f : tree D -> result (tree D)) (t : tree D)
  : result (tree D) :=
  match names with
  | [] => f t
  | n :: r =>
      match t with
      | Node d c =>
          match dget n c with
          | None => Raise KeyError
          | Some s => fmap (fun s' => Node d (dset n s' c)) (update_at r f s)
          end
      end
  end.

(** ** Nested dictionaries, as produced by [to_dict] *)
Inductive pyval (D : Type) : Type :=
| PData (d : D)                          (* a node's data *)
| PDict (kv : list (string * pyval D)).  (* a Python dict *)
Arguments PData {D} d.
Arguments PDict {D} kv.

(** tree_utils.py:69-83 [to_dict] *)
Fixpoint to_dict {D} (t : tree D) : pyval D :=
  match t with
  | Node d c =>
      PDict [("data", PData d);
             ("children", PDict (map (fun kv => (fst kv, to_dict (snd kv))) c))]
  end.

(** tree_utils.py:85-93 [from_dict]: d["data"] then d["children"].items(); KeyError when a
    key is absent.  When d["data"] is itself a dict of dicts, or "children" is not a dict,
    Python would go on or raise AttributeError; we report TypeError for an ill-typed input
    (the theorems only use well-typed inputs). *)
Fixpoint from_dict {D} (p : pyval D) : result (tree D) :=
  match p with
  | PData _ => Raise TypeError
  | PDict kv =>
      match dget "data" kv with
      | None => Raise KeyError
      | Some (PDict _) => Raise TypeError
      | Some (PData d) =>
          (fix find (l : list (string * pyval D)) : result (tree D) :=
             match l with
             | [] => Raise KeyError
             | (k, v) :: r =>
                 if String.eqb "children" k then
                   match v with
                   | PData _ => Raise TypeError
                   | PDict ch =>
                       (fix loop (c : list (string * pyval D)) (acc : tree D) :=
                          match c with
                          | [] => Ok acc
                          | (n, s) :: c' =>
                              match from_dict s with
                              | Raise e => Raise e
                              | Ok st => loop c' (add_child n st acc)
                              end
                          end) ch (Node d [])
                   end
                 else find r
             end) kv
      end
  end.

(** tree_utils.py:217-225 [_add_prefix] (dict comprehension; prefix "" is a copy) *)
Definition add_prefix {V} (d : dict V) (prefix : string) : dict V :=
  if String.eqb prefix "" then d
  else dict_of_list (map (fun kv => (String.append prefix (String dot (fst kv)), snd kv)) d).

(** tree_utils.py:106-120 [replace_subtree] *)
Definition replace_subtree {D} (delim : ascii) (path : string) (s : tree D) (t : tree D)
  : result (tree D) :=
  let names := split delim path in
  let child := last names "" in
  update_at (subtree_names dot (join delim (removelast names)))
    (fun p => match p with
              | Node d c => if dmem child c then Ok (Node d (dset child s c)) else Raise KeyError
              end) t.

(** ** ParameterTree (data is a dict of parameters) *)
Section Param.
Context {V : Type}.
Definition ptree := tree (dict V).

(** tree_utils.py:99-102: [_set_leaf] for [_data_type == dict].  Note [_get_subtree] is
    called without the delimiter, so "." is used there. *)
Definition set_leaf (delim : ascii) (path : string) (v : V) (t : ptree) : result ptree :=
  let names := split delim path in
  update_at (subtree_names dot (join delim (removelast names)))
    (fun n => match n with Node d c => Ok (Node (dset (last names "") v d) c) end) t.

(** tree_utils.py:174-177 [get_param] *)
Definition get_param (delim : ascii) (path : string) (t : ptree) : result V :=
  let names := split delim path in
  bind (get_subtree dot (join delim (removelast names)) t)
       (fun n => lookup_err (last names "") (tdata n)).

(** tree_utils.py:179-180 [set_param] *)
Definition set_param := set_leaf.

(** tree_utils.py:125-142 [_make_flat_dict] for [_data_type == dict] *)
Fixpoint make_flat_dict (prefix : string) (t : ptree) : dict V :=
  match t with
  | Node d c =>
      (fix loop (l : list (string * ptree)) (acc : dict V) : dict V :=
         match l with
         | [] => acc
         | (name, child) :: r =>
             loop r (dupdate acc (add_prefix (make_flat_dict name child) prefix))
         end) c (add_prefix d prefix)
  end.

(** the loop "for k, v in flat.items(): t._set_leaf(k, v)" (148-151 and 160-161) *)
Definition set_leaves (kvs : list (string * V)) (t : ptree) : result ptree :=
  foldM (fun t kv => set_leaf dot (fst kv) (snd kv) t) kvs t.

(** tree_utils.py:144-152 [_make_tree_def] (dummy_var = "*") *)
Definition make_tree_def (dummy : V) (t : ptree) : result (pyval (dict V)) :=
  bind (from_dict (to_dict t)) (fun t1 =>
  bind (set_leaves (map (fun kv => (fst kv, dummy)) (make_flat_dict "" t)) t1) (fun t2 =>
  Ok (to_dict t2))).

(** tree_utils.py:122-123 [to_flat_dict] *)
Definition to_flat_dict (dummy : V) (t : ptree) : result (dict V * pyval (dict V)) :=
  fmap (fun td => (make_flat_dict "" t, td)) (make_tree_def dummy t).

(** tree_utils.py:154-163 [from_flat_dict] *)
Definition from_flat_dict (td : pyval (dict V)) (flat : dict V) : result ptree :=
  bind (from_dict td) (set_leaves flat).

(** tree_utils.py:183-187 [tree_flatten] *)
Definition tree_flatten (dummy : V) (t : ptree)
  : result (list V * (pyval (dict V) * list string)) :=
  fmap (fun p => (values (fst p), (snd p, keys (fst p)))) (to_flat_dict dummy t).

(** tree_utils.py:189-193 [tree_unflatten]; [zip] truncates to the shorter list *)
Definition tree_unflatten (aux : pyval (dict V) * list string) (leaves : list V)
  : result ptree :=
  from_flat_dict (fst aux) (dict_of_list (combine (snd aux) leaves)).

End Param.
Arguments ptree V : clear implicits.

(** ** ConfigTree (data is one value, in practice a string) *)
Section Config.
Context {V : Type}.

(** tree_utils.py:96-98: [_set_leaf] for [_data_type == str] *)
Definition cset_leaf (delim : ascii) (path : string) (v : V) (t : tree V) : result (tree V) :=
  update_at (subtree_names delim path) (fun n => match n with Node _ c => Ok (Node v c) end) t.

(** tree_utils.py:125-142 [_make_flat_dict] for [_data_type == str] *)
Fixpoint cmake_flat_dict (prefix : string) (t : tree V) : dict V :=
  match t with
  | Node d c =>
      (fix loop (l : list (string * tree V)) (acc : dict V) : dict V :=
         match l with
         | [] => acc
         | (name, child) :: r =>
             loop r (dupdate acc (add_prefix (cmake_flat_dict name child) prefix))
         end) c [(prefix, d)]
  end.

Definition cset_leaves (kvs : list (string * V)) (t : tree V) : result (tree V) :=
  foldM (fun t kv => cset_leaf dot (fst kv) (snd kv) t) kvs t.

(** tree_utils.py:144-152 *)
Definition cmake_tree_def (dummy : V) (t : tree V) : result (pyval V) :=
  bind (from_dict (to_dict t)) (fun t1 =>
  bind (cset_leaves (map (fun kv => (fst kv, dummy)) (cmake_flat_dict "" t)) t1) (fun t2 =>
  Ok (to_dict t2))).

(** tree_utils.py:154-163 *)
Definition cfrom_flat_dict (td : pyval V) (flat : dict V) : result (tree V) :=
  bind (from_dict td) (cset_leaves flat).
End Config.

(** ** Raveling (numpy branch) *)

(** A leaf: a scalar (shape ()) or an array with its shape and its elements in C order.
    numpy guarantees [length elems = product of shape]. *)
Inductive leaf (A : Type) : Type :=
| LScalar (a : A)
| LArray (shape : list nat) (elems : list A).
Arguments LScalar {A} a.
Arguments LArray {A} shape elems.

Section Ravel.
Context {A : Type}.

(** tree_utils.py:232-256 [_size], [_shape], [_ravel] on numpy values *)
Definition lsize (x : leaf A) : nat :=
  match x with LScalar _ => 1 | LArray _ e => List.length e end.
Definition lshape (x : leaf A) : list nat :=
  match x with LScalar _ => [] | LArray s _ => s end.
Definition lravel (x : leaf A) : list A :=
  match x with LScalar a => [a] | LArray _ e => e end.

(** [np.cumsum(sizes)[:-1]] followed by [np.split(arr, ...)]: consecutive chunks, the last
    one taking everything that is left. *)
Fixpoint split_sizes (sizes : list nat) (arr : list A) : list (list A) :=
  match sizes with
  | [] => [arr]
  | [_] => [arr]
  | n :: r => firstn n arr :: split_sizes r (skipn n arr)
  end.

Definition prod (s : list nat) : nat := fold_right Nat.mul 1 s.

(** tree_utils.py:306-309: [chunk.reshape(shape) if _size(chunk) > 1 else chunk[0]];
    numpy's reshape raises ValueError on a size mismatch *)
Definition reconstruct (chunk : list A) (shape : list nat) : result (leaf A) :=
  if Nat.ltb 1 (List.length chunk) then
    (* reshaping to shape () gives a 0-d array, only possible for one element *)
    if Nat.eqb (prod shape) (List.length chunk) then Ok (LArray shape chunk)
    else Raise ValueError
  else match chunk with
       | a :: _ => Ok (LScalar a)
       | [] => Raise IndexError
       end.

(** tree_utils.py:283-317 [_ravel_flat_dict]: the raveled vector *)
Definition ravel_dict (d : dict (leaf A)) : list A := concat (map lravel (values d)).

(** ... and the inner [unravel] *)
Definition unravel_dict (d : dict (leaf A)) (arr : list A) : result (dict (leaf A)) :=
  match d with
  | [] => Ok []
  | _ =>
      let chunks := split_sizes (map lsize (values d)) arr in
      fmap (fun vs => dict_of_list (combine (keys d) vs))
           (mapM (fun cs => reconstruct (fst cs) (snd cs))
                 (combine chunks (map lshape (values d))))
  end.

(** tree_utils.py:195-209 [tree_ravel] *)
Definition tree_ravel (dummy : leaf A) (t : ptree (leaf A))
  : result (list A * (list A -> result (ptree (leaf A)))) :=
  fmap (fun fa =>
          let flat_dict := dict_of_list (combine (snd (snd fa)) (fst fa)) in
          (ravel_dict flat_dict,
           fun arr => bind (unravel_dict flat_dict arr)
                           (fun d => tree_unflatten (snd fa) (values d))))
       (tree_flatten dummy t).
End Ravel.
