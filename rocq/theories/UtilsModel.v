(** Model of lumos/optimal_control/utils.py. *)
From Verif Require Import Base TreeModel.

(** ** NumPy helpers used by the model (external code; assumed semantics) *)

(** Normalise a Python slice bound [k] for a sequence of length [n] *)
Definition py_bound (n : nat) (k : Z) : nat :=
  if Z.ltb k 0 then Z.to_nat (Z.of_nat n + k) else Nat.min n (Z.to_nat k).

(** consecutive chunks of [k] elements *)
Fixpoint chunks {A} (n k : nat) (l : list A) : list (list A) :=
  match n with 0 => [] | S n' => firstn k l :: chunks n' k (skipn k l) end.

(** A 2d array of rows; [ncols] is kept separately because an array with no rows still has
    a number of columns. *)
Record mat (A : Type) := { ncols : nat; rows : list (list A) }.
Arguments ncols {A} _.
Arguments rows {A} _.

(** [np.reshape(a, (r, c))] of a 1d array; [r = -1] is inferred, other negative dims and
    size mismatches raise ValueError *)
Definition reshape2 {A} (r : Z) (c : nat) (a : list A) : result (mat A) :=
  if Z.eqb r (-1) then
    if Nat.eqb c 0 then Raise ValueError
    else if Nat.eqb (Nat.modulo (List.length a) c) 0 then
      Ok {| ncols := c; rows := chunks (Nat.div (List.length a) c) c a |}
    else Raise ValueError
  else if Z.ltb r 0 then Raise ValueError
  else if Nat.eqb (Z.to_nat r * c) (List.length a) then
    Ok {| ncols := c; rows := chunks (Z.to_nat r) c a |}
  else Raise ValueError.

Definition vstack {A} (m1 m2 : mat A) : result (mat A) :=
  if Nat.eqb (ncols m1) (ncols m2) then Ok {| ncols := ncols m1; rows := rows m1 ++ rows m2 |}
  else Raise ValueError.

Fixpoint zip_app {A} (l1 l2 : list (list A)) : list (list A) :=
  match l1, l2 with a :: r, b :: s => (a ++ b) :: zip_app r s | _, _ => [] end.

(** [np.concatenate([m1, m2], axis=1)] *)
Definition hstack {A} (m1 m2 : mat A) : result (mat A) :=
  if Nat.eqb (List.length (rows m1)) (List.length (rows m2)) then
    Ok {| ncols := ncols m1 + ncols m2; rows := zip_app (rows m1) (rows m2) |}
  else Raise ValueError.

(** utils.py:13-38 [batch_conv1d], numpy backend.  An element of type [A] stands for one
    (non-empty) unit tensor.  [stride = 0] raises ZeroDivisionError. *)
Definition batch_conv1d {A} (x : list A) (width stride : nat) : result (mat A) :=
  let len := Z.of_nat (List.length x) in
  let w := Z.of_nat width in
  let s := Z.of_nat stride in
  if Nat.eqb stride 0 then Raise ZeroDivisionError
  else if negb (Z.eqb ((len - w) mod s) 0) then Raise ValueError
  else
    let batch := ((len - w) / s + 1)%Z in
    let overlap := (w - s)%Z in
    let k := py_bound (List.length x) (len - overlap) in
    let a0 := firstn k x in
    let b0 := skipn k x in
    bind (reshape2 batch stride a0) (fun a =>
    let b := {| ncols := List.length b0; rows := [b0] |} in
    let c := py_bound stride overlap in
    let a_tail := {| ncols := c; rows := map (firstn c) (tl (rows a)) |} in
    bind (vstack a_tail b) (fun overlapped => hstack a overlapped)).

(** ** DecVarOperator *)

(** utils.py:46-75 [DecVarOperator.__init__].  [mvn] is the model's NamedTuple of names. *)
Record dvo := {
  mvn : dict (list string);
  sgroups : list string;
  gnames : list string;
  nintervals : nat;
  nspi : nat;                    (* num_stages_per_interval, at least 1 *)
}.

(** [getattr(self._model_var_names, group)] *)
Definition group_names (op : dvo) (g : string) : result (list string) :=
  match dget g (mvn op) with Some l => Ok l | None => Raise AttributeError end.

(** total version used after construction succeeded (all stage groups exist) *)
Definition gnames_of (op : dvo) (g : string) : list string :=
  match dget g (mvn op) with Some l => l | None => [] end.

(** utils.py:104-105 [get_stage_var_size] *)
Definition group_size (op : dvo) (g : string) : nat := List.length (gnames_of op g).

Definition group_sizes (op : dvo) : list nat := map (group_size op) (sgroups op).

Fixpoint nsum (l : list nat) : nat := match l with [] => 0 | n :: r => n + nsum r end.

(** utils.py:77-79 [num_var_stage] *)
Definition num_var_stage (op : dvo) : nat := nsum (group_sizes op).
(** utils.py:85-87 [num_stages] *)
Definition num_stages (op : dvo) : nat := nintervals op * (nspi op - 1) + 1.
(** utils.py:89-91 [num_all_stage_var] *)
Definition num_all_stage_var (op : dvo) : nat := num_stages op * num_var_stage op.
(** utils.py:93-95 [num_global_var], 97-99 [num_dec] *)
Definition num_global_var (op : dvo) : nat := List.length (gnames op).
Definition num_dec (op : dvo) : nat := num_all_stage_var op + num_global_var op.

(** utils.py:169-170 [_make_stage_var_name] *)
Definition svname (g n : string) : string := String.append g (String dot n).

(** utils.py:172-180 [stage_var_names] *)
Definition stage_var_names (op : dvo) : list string :=
  flat_map (fun g => map (svname g) (gnames_of op g)) (sgroups op).

(** utils.py:182-188 the two IntEnums.  Creating an Enum with a repeated name raises
    TypeError; a missing group raises AttributeError. *)
Definition make_dvo (m : dict (list string)) (ni ns : nat) (sg gn : list string) : result dvo :=
  let op := {| mvn := m; sgroups := sg; gnames := gn; nintervals := ni; nspi := ns |} in
  match mapM (group_names op) sg with
  | Raise e => Raise e
  | Ok _ => if negb (nodupb (stage_var_names op)) then Raise TypeError
            else if negb (nodupb gn) then Raise TypeError
            else Ok op
  end.

(** position in a list of names ([Enum[name]] / [tuple.index]) *)
Fixpoint index_of (n : string) (l : list string) : option nat :=
  match l with
  | [] => None
  | x :: r => if String.eqb n x then Some 0 else option_map S (index_of n r)
  end.
Definition enum_get (n : string) (l : list string) : result nat :=
  match index_of n l with Some i => Ok i | None => Raise KeyError end.

(** utils.py:190-199 [get_var_index_in_group]; [tuple.index] raises ValueError *)
Definition index_in_group (op : dvo) (g n : string) : result nat :=
  if String.eqb g "global" then enum_get n (gnames op)
  else bind (group_names op g) (fun l =>
       match index_of n l with Some i => Ok i | None => Raise ValueError end).

(** utils.py:238-246 / 258-267: the stage range check and [stage %= num_stages] *)
Definition norm_stage (op : dvo) (stage : Z) : result nat :=
  let ns := Z.of_nat (num_stages op) in
  if Z.ltb (ns - 1) stage || Z.ltb stage (- ns) then Raise ValueError
  else Ok (Z.to_nat (stage mod ns)).

(** utils.py:201-254 [get_var_index_in_dec] with a stage, or for group "global" *)
Definition index_at (op : dvo) (g n : string) (stage : Z) : result nat :=
  if String.eqb g "global" then fmap (fun i => num_all_stage_var op + i) (enum_get n (gnames op))
  else bind (norm_stage op stage) (fun s =>
       fmap (fun i => i + s * num_var_stage op) (enum_get (svname g n) (stage_var_names op))).

(** utils.py:222-235 [get_var_index_in_dec] with stage=None: all stages (a single index for "global") *)
Definition index_all (op : dvo) (g n : string) : result (list nat) :=
  if String.eqb g "global" then fmap (fun i => [num_all_stage_var op + i]) (enum_get n (gnames op))
  else fmap (fun i => map (fun s => i + s * num_var_stage op) (seq 0 (num_stages op)))
            (enum_get (svname g n) (stage_var_names op)).

(** utils.py:256-277 [get_group_indices_at_stage] *)
Definition group_indices_at (op : dvo) (g : string) (stage : Z) : result (list nat) :=
  bind (norm_stage op stage) (fun s =>
  bind (group_names op g) (fun l =>
  fmap (map (fun i => i + s * num_var_stage op))
       (mapM (fun n => enum_get (svname g n) (stage_var_names op)) l))).

(** utils.py:279-286 [get_group_indcies_in_dec] *)
Definition group_indices_in_dec (op : dvo) (g : string) : result (list nat) :=
  fmap (@concat nat) (mapM (fun s => group_indices_at op g (Z.of_nat s)) (seq 0 (num_stages op))).

Section Vals.
Context {A : Type}.

(** A keyword argument / namedtuple field: a 2d group array (rows = stages) or a scalar *)
Inductive field : Type := FArr (r : list (list A)) | FSc (a : A).

(** [np.concatenate(arrays, axis=-1)] of 2d arrays: no array, or different row counts: ValueError *)
Definition hconcat (arrs : list (list (list A))) : result (list (list A)) :=
  match arrs with
  | [] => Raise ValueError
  | a :: r =>
      if forallb (fun b => Nat.eqb (List.length b) (List.length a)) r then
        Ok (fold_left zip_app r a)
      else Raise ValueError
  end.

Definition as_scalar (f : field) : result A :=
  match f with FSc a => Ok a | FArr _ => Raise AssertionError end.
Definition as_array (f : field) : result (list (list A)) :=
  match f with FArr r => Ok r | FSc _ => Raise ValueError end.

(** utils.py:135-140 [flatten_var] (with 120-128 [merge_stage_and_global_vars]); scalars and
    arrays in the wrong place are rejected by numpy or the assertion *)
Definition flatten_var (op : dvo) (kw : dict field) : result (list A) :=
  bind (mapM (fun n => bind (lookup_err n kw) as_scalar) (gnames op)) (fun gl =>
  let kw' := fold_left (fun d n => ddel n d) (gnames op) kw in
  bind (mapM (fun g => bind (lookup_err g kw') as_array) (sgroups op)) (fun arrs =>
  bind (hconcat arrs) (fun m => Ok (concat m ++ gl)))).

(** utils.py:107-113 [_build_group_split_indices] + [np.split(.., axis=-1)]: column blocks *)
Definition split_groups (op : dvo) (m : list (list A)) : list (list (list A)) :=
  map (fun k => map (fun row => nth k (split_sizes (group_sizes op) row) []) m)
      (seq 0 (Nat.max 1 (List.length (sgroups op)))).

(** utils.py:142-153 [unflatten_var]; [zip] truncates; a missing namedtuple field raises TypeError *)
Definition unflatten_var (op : dvo) (vec : list A) : result (dict field) :=
  let sv := firstn (num_all_stage_var op) vec in
  let gv := skipn (num_all_stage_var op) vec in
  bind (reshape2 (-1) (num_var_stage op) sv) (fun m =>
  let d := dict_of_list (combine (sgroups op) (map FArr (split_groups op (rows m)))) in
  let d2 := dupdate d (combine (gnames op) (map FSc gv)) in
  if forallb (fun n => dmem n d2) (sgroups op ++ gnames op) then Ok d2 else Raise TypeError).

Definition array_get (x : list A) (i : nat) : result A :=
  match nth_error x i with Some a => Ok a | None => Raise IndexError end.

(** utils.py:288-291 [get_var] with a stage (or global) *)
Definition get_var (op : dvo) (x : list A) (g n : string) (stage : Z) : result A :=
  bind (index_at op g n stage) (array_get x).
Definition get_var_all (op : dvo) (x : list A) (g n : string) : result (list A) :=
  bind (index_all op g n) (mapM (array_get x)).

(** utils.py:293-299 [get_stage_var_array] *)
Definition get_stage_var_array (op : dvo) (x : list A) : result (mat A) :=
  reshape2 (Z.of_nat (num_stages op)) (num_var_stage op) (firstn (num_dec op - num_global_var op) x).

(** utils.py:155-167 [get_interval_tensor]; rows are stages, elements of a window are rows *)
Definition get_interval_tensor (op : dvo) (x : list A) (g : string) : result (mat (list A)) :=
  bind (unflatten_var op x) (fun d =>
  bind (match dget g d with Some f => as_array f | None => Raise AttributeError end) (fun r =>
  batch_conv1d r (nspi op) (nspi op - 1))).
End Vals.
Arguments field A : clear implicits.

(** utils.py:302-319 [create_offset_structure]; np.hstack of no block raises ValueError *)
Definition create_offset_structure (base_rows base_cols : list nat) (row_off col_off nblocks : nat)
  : result (list nat * list nat) :=
  if Nat.eqb nblocks 0 then Raise ValueError
  else Ok (flat_map (fun i => map (fun r => r + i * row_off) base_rows) (seq 0 nblocks),
           flat_map (fun i => map (fun c => c + i * col_off) base_cols) (seq 0 nblocks)).

(** utils.py:322-338 [stack_and_increment] for a 1d base array and axis = 0: row k is x + k*inc *)
Definition stack_and_increment (x : list nat) (num_repeat num_increment : nat) : list (list nat) :=
  map (fun k => map (fun v => v + k * num_increment) x) (seq 0 num_repeat).
