(** Parameter trees, models and optimal control problems as objects that share state: the parts of tree_utils.py, composition.py and scaled_mesh_ocp.py that
    pass parameters around, with object identity and mutation in place.

    Simplifications: the values of the parameters are immutable (a numpy array that is modified in place is not covered); references are natural numbers,
    objects are never collected; an exception ends the program;
    problems are not condensed (on those modify_model_param raises, see C56) and have a model of their own, as in LaptimeSimulation and DroneSimulation.  A dict object of data and a node are separate objects; the dict of children belongs to its
    node (Tree.__init__ makes a new one, nothing else gets hold of it). *)
From Verif Require Import Base TreeModel.

Section Share.
Context {V : Type}.

(** tree_utils.py:27-46 a node: references to its data and its children *)
Record obj := { o_data : nat; o_children : dict nat }.
Record heap := { h_nodes : nat -> obj; h_dicts : nat -> dict V; h_nn : nat; h_nd : nat }.
Definition no_obj : obj := {| o_data := 0; o_children := [] |}.
Definition put_node (h : heap) (l : nat) (ob : obj) : heap :=
  {| h_nodes := fun i => if Nat.eqb i l then ob else h_nodes h i; h_dicts := h_dicts h; h_nn := h_nn h; h_nd := h_nd h |}.
Definition put_dict (h : heap) (l : nat) (d : dict V) : heap :=
  {| h_nodes := h_nodes h; h_dicts := fun i => if Nat.eqb i l then d else h_dicts h i; h_nn := h_nn h; h_nd := h_nd h |}.
(** a new dict object, e.g. dict.copy() *)
Definition new_dict (h : heap) (d : dict V) : heap * nat :=
  ({| h_nodes := h_nodes h; h_dicts := fun i => if Nat.eqb i (h_nd h) then d else h_dicts h i; h_nn := h_nn h; h_nd := S (h_nd h) |}, h_nd h).
(** tree_utils.py:28-46 [Tree.__init__]: the data object is kept, not copied; so are the children, in a new dict with the same items *)
Definition new_node (h : heap) (data : nat) (children : dict nat) : heap * nat :=
  ({| h_nodes := fun i => if Nat.eqb i (h_nn h) then {| o_data := data; o_children := children |} else h_nodes h i;
      h_dicts := h_dicts h; h_nn := S (h_nn h); h_nd := h_nd h |}, h_nn h).

(** tree_utils.py:56-57 [get_child], 59-67 [_get_subtree]: the node itself, not a copy *)
Definition hget_child (h : heap) (name : string) (l : nat) : result nat := lookup_err name (o_children (h_nodes h l)).
Fixpoint hwalk (h : heap) (names : list string) (l : nat) : result nat :=
  match names with [] => Ok l | n :: r => bind (hget_child h n l) (hwalk h r) end.
Definition hget_subtree (h : heap) (delim : ascii) (path : string) (l : nat) : result nat := hwalk h (subtree_names delim path) l.
(** tree_utils.py:174-177 [get_param] *)
Definition hget_param (h : heap) (delim : ascii) (path : string) (l : nat) : result V :=
  let names := split delim path in
  bind (hget_subtree h dot (join delim (removelast names)) l) (fun n => lookup_err (last names "") (h_dicts h (o_data (h_nodes h n)))).
(** tree_utils.py:95-104 [_set_leaf] for dict data, 179-180 [set_param] *)
Definition hset_param (h : heap) (delim : ascii) (path : string) (v : V) (l : nat) : result heap :=
  let names := split delim path in
  bind (hget_subtree h dot (join delim (removelast names)) l) (fun n =>
  let d := o_data (h_nodes h n) in Ok (put_dict h d (dset (last names "") v (h_dicts h d)))).
(** tree_utils.py:106-120 [replace_subtree]: the subtree itself is put in the place of the child *)
Definition hreplace_subtree (h : heap) (delim : ascii) (path : string) (s : nat) (l : nat) : result heap :=
  let names := split delim path in let child := last names "" in
  bind (hget_subtree h dot (join delim (removelast names)) l) (fun p =>
  if dmem child (o_children (h_nodes h p)) then Ok (put_node h p {| o_data := o_data (h_nodes h p); o_children := dset child s (o_children (h_nodes h p)) |}) else Raise KeyError).
(** "t._data = d" of the user (laptime_simulation_example.py:54-60) *)
Definition hset_data (h : heap) (l d : nat) : heap := put_node h l {| o_data := d; o_children := o_children (h_nodes h l) |}.

(** laptime_simulation_example.py:54-60, the body of the loop: the node itself is changed and put back in its place *)
Definition hsharpen (h : heap) (l d : nat) (c : string) : result heap :=
  let path := String.append "vehicle.tire_" c in
  bind (hget_subtree h dot path l) (fun t => hreplace_subtree (hset_data h t d) dot path t l).
Definition hsharpen_all (h : heap) (l d : nat) : result heap := foldM (fun h c => hsharpen h l d c) ["fl"; "fr"; "rl"; "rr"] h.

(** tree_utils.py:69-83 [to_dict]: what a tree holds, by recursion over the objects; [lim] is Python's recursion limit *)
Fixpoint hread (lim : nat) (h : heap) (l : nat) : result (tree (dict V)) :=
  match lim with
  | O => Raise RecursionError
  | S lim =>
      fmap (Node (h_dicts h (o_data (h_nodes h l))))
        ((fix each (cs : dict nat) : result (list (string * tree (dict V))) :=
            match cs with [] => Ok [] | (n, c) :: r => bind (hread lim h c) (fun t => fmap (cons (n, t)) (each r)) end) (o_children (h_nodes h l)))
  end.
(** tree_utils.py:85-93 [from_dict] of such a dictionary: new objects only *)
Fixpoint hbuild (h : heap) (t : tree (dict V)) : heap * nat :=
  match t with
  | Node d cs =>
      let hd := new_dict h d in
      let hc := (fix each (l : list (string * tree (dict V))) (h : heap) : heap * dict nat :=
                   match l with [] => (h, []) | (n, t) :: r => let x := hbuild h t in let y := each r (fst x) in (fst y, (n, snd x) :: snd y) end) cs (fst hd) in
      new_node (fst hc) (snd hd) (snd hc)
  end.
Definition hcopy (lim : nat) (h : heap) (l : nat) : result (heap * nat) := fmap (hbuild h) (hread lim h l).

(** composition.py:88-113 a model: its own dict of direct parameters, and its submodels *)
Definition model := tree nat.
(** composition.py:206-218 [set_recursive_params]: every model copies the data of its node (the classes of the submodels, given by the shape, do not change) *)
Fixpoint hset_recursive (h : heap) (shape : tree unit) (l : nat) : result (heap * model) :=
  match shape with
  | Node _ subs =>
      let hd := new_dict h (h_dicts h (o_data (h_nodes h l))) in
      fmap (fun hm => (fst hm, Node (snd hd) (snd hm)))
        ((fix each (ss : list (string * tree unit)) (h : heap) : result (heap * list (string * model)) :=
            match ss with
            | [] => Ok (h, [])
            | (n, s) :: r => bind (hget_child h n l) (fun c => bind (hset_recursive h s c) (fun x => fmap (fun y => (fst y, (n, snd x) :: snd y)) (each r (fst x))))
            end) subs (fst hd))
  end.
(** composition.py:220-231 [get_recursive_params]: a new tree with copies of the data *)
Fixpoint hget_recursive (h : heap) (m : model) : heap * nat :=
  match m with
  | Node d subs =>
      let hd := new_dict h (h_dicts h d) in
      let hc := (fix each (ss : list (string * model)) (h : heap) : heap * dict nat :=
                   match ss with [] => (h, []) | (n, s) :: r => let x := hget_recursive h s in let y := each r (fst x) in (fst y, (n, snd x) :: snd y) end) subs (fst hd) in
      new_node (fst hc) (snd hd) (snd hc)
  end.
Fixpoint shape_of {A} (m : tree A) : tree unit := match m with Node _ subs => Node tt (map (fun kv => (fst kv, shape_of (snd kv))) subs) end.

(** what the constraints of a problem hold: the tree itself (jax), or the flat array of its values (casadi) *)
Inductive con_params := Live (l : nat) | Flat (vs : list V).
(** convolution.py:103-112 [set_params]; tree_utils.py:182-187, 195-209 the flat array of casadi is made of the list of values *)
Definition hset_params (lim : nat) (h : heap) (cas : bool) (l : nat) : result con_params :=
  if cas then fmap (fun t => Flat (map snd (make_flat_dict "" t))) (hread lim h l) else Ok (Live l).
Record rocp := { r_params : nat; r_model : model; r_con : con_params; r_cas : bool }.
(** laptime_simulation.py:139-185 and drone_simulation.py:56-71: a model of its own from the given parameters (composition.py:88-113);
    scaled_mesh_ocp.py:78-84: its parameters are taken from the model; convolution.py:37-56 *)
Definition hnew_ocp (lim : nat) (h : heap) (shape : tree unit) (l : nat) (cas : bool) : result (heap * rocp) :=
  bind (hset_recursive h shape l) (fun hm => let hp := hget_recursive (fst hm) (snd hm) in
  fmap (fun c => (fst hp, {| r_params := snd hp; r_model := snd hm; r_con := c; r_cas := cas |})) (hset_params lim (fst hp) cas (snd hp))).
(** scaled_mesh_ocp.py:158-165 [_set_model_params] *)
Definition hset_model_params (lim : nat) (h : heap) (o : rocp) (l : nat) : result (heap * rocp) :=
  bind (hset_recursive h (shape_of (r_model o)) l) (fun hm =>
  fmap (fun c => (fst hm, {| r_params := l; r_model := snd hm; r_con := c; r_cas := r_cas o |})) (hset_params lim (fst hm) (r_cas o) l)).
(** scaled_mesh_ocp.py:167-170 [modify_model_param] *)
Definition hmodify (lim : nat) (h : heap) (o : rocp) (path : string) (v : V) : result (heap * rocp) :=
  bind (hset_param h dot path v (r_params o)) (fun h1 => hset_model_params lim h1 o (r_params o)).
(** the values that the constraints use when they are evaluated (convolution.py:57-87; with jax the tree is flattened in the call) *)
Definition hused (lim : nat) (h : heap) (c : con_params) : result (list V) :=
  match c with Flat vs => Ok vs | Live l => fmap (fun t => map snd (make_flat_dict "" t)) (hread lim h l) end.

(** ** Programs: what a user does with trees, dicts and problems; references are given by their position in the lists of what the user holds *)
Record world := { w_h : heap; w_trees : list nat; w_dicts : list nat; w_ocps : list rocp }.
Inductive event :=
| UDict (d : dict V)                                  (* make a dict *)
| UPut (j : nat) (k : string) (v : V)                 (* d[k] = v *)
| UTree (j : nat) (cs : list (string * nat))          (* ParameterTree(d, children) *)
| USub (i : nat) (path : string)                      (* t._get_subtree(path) *)
| UDataOf (i : nat)                                   (* t.data *)
| USetData (i j : nat)                                (* t._data = d *)
| USet (i : nat) (path : string) (v : V)              (* t.set_param(path, v) *)
| UReplace (i : nat) (path : string) (i2 : nat)       (* t.replace_subtree(path, t2) *)
| UCopy (i : nat)                                     (* ParameterTree.from_dict(t.to_dict()) *)
| UGet (k : nat)                                      (* ocp.model.get_recursive_params() *)
| ONew (shape : tree unit) (i : nat) (cas : bool)     (* a simulation with a model of this shape and the parameters t *)
| OMod (k : nat) (path : string) (v : V).             (* ocp.modify_model_param(path, v) *)
Definition pick {A} (l : list A) (i : nat) : result A := match nth_error l i with Some a => Ok a | None => Raise NameError end.
Fixpoint put_at {A} (i : nat) (a : A) (l : list A) : list A :=
  match l, i with [], _ => [] | _ :: r, O => a :: r | x :: r, S i => x :: put_at i a r end.
Definition with_tree (w : world) (x : heap * nat) : world := {| w_h := fst x; w_trees := w_trees w ++ [snd x]; w_dicts := w_dicts w; w_ocps := w_ocps w |}.
Definition with_heap (w : world) (h : heap) : world := {| w_h := h; w_trees := w_trees w; w_dicts := w_dicts w; w_ocps := w_ocps w |}.
Definition with_dict (w : world) (x : heap * nat) : world := {| w_h := fst x; w_trees := w_trees w; w_dicts := w_dicts w ++ [snd x]; w_ocps := w_ocps w |}.
Definition step (lim : nat) (w : world) (e : event) : result world :=
  match e with
  | UDict d => Ok (with_dict w (new_dict (w_h w) d))
  | UPut j k v => bind (pick (w_dicts w) j) (fun d => Ok (with_heap w (put_dict (w_h w) d (dset k v (h_dicts (w_h w) d)))))
  | UTree j cs => bind (pick (w_dicts w) j) (fun d => bind (mapM (fun kv => fmap (pair (fst kv)) (pick (w_trees w) (snd kv))) cs) (fun c => Ok (with_tree w (new_node (w_h w) d c))))
  | USub i path => bind (pick (w_trees w) i) (fun l => fmap (fun s => with_tree w (w_h w, s)) (hget_subtree (w_h w) dot path l))
  | UDataOf i => bind (pick (w_trees w) i) (fun l => Ok (with_dict w (w_h w, o_data (h_nodes (w_h w) l))))
  | USetData i j => bind (pick (w_trees w) i) (fun l => bind (pick (w_dicts w) j) (fun d => Ok (with_heap w (hset_data (w_h w) l d))))
  | USet i path v => bind (pick (w_trees w) i) (fun l => fmap (with_heap w) (hset_param (w_h w) dot path v l))
  | UReplace i path i2 => bind (pick (w_trees w) i) (fun l => bind (pick (w_trees w) i2) (fun s => fmap (with_heap w) (hreplace_subtree (w_h w) dot path s l)))
  | UCopy i => bind (pick (w_trees w) i) (fun l => fmap (with_tree w) (hcopy lim (w_h w) l))
  | UGet k => bind (pick (w_ocps w) k) (fun o => Ok (with_tree w (hget_recursive (w_h w) (r_model o))))
  | ONew shape i cas => bind (pick (w_trees w) i) (fun l => fmap (fun x => {| w_h := fst x; w_trees := w_trees w; w_dicts := w_dicts w; w_ocps := w_ocps w ++ [snd x] |}) (hnew_ocp lim (w_h w) shape l cas))
  | OMod k path v => bind (pick (w_ocps w) k) (fun o => fmap (fun x => {| w_h := fst x; w_trees := w_trees w; w_dicts := w_dicts w; w_ocps := put_at k (snd x) (w_ocps w) |}) (hmodify lim (w_h w) o path v))
  end.
Fixpoint run (lim : nat) (w : world) (es : list event) : result world := match es with [] => Ok w | e :: r => bind (step lim w e) (fun w' => run lim w' r) end.
Definition start : world := {| w_h := {| h_nodes := fun _ => no_obj; h_dicts := fun _ => []; h_nn := 0; h_nd := 0 |}; w_trees := []; w_dicts := []; w_ocps := [] |}.
End Share.
Arguments heap : clear implicits.
Arguments con_params : clear implicits.
Arguments rocp : clear implicits.
Arguments world : clear implicits.
Arguments event : clear implicits.
