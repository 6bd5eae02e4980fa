(** Model of lumos/numpy/__init__.py:31-50 and lumos/numpy/utils.py:14-23, 96-253: backend selection, lmap, cmap. *)
From Verif Require Import Base RBase UtilsModel.

(** ** Backend selection *)
(** numpy/__init__.py:26 the valid backends; :28 the default *)
Definition backends : list string := ["jax"; "numpy"; "casadi"].
Definition default_backend : string := "numpy".
(** numpy/__init__.py:37-47 [set_backend]: an invalid name is only logged *)
Definition set_backend (cur b : string) : string := if existsb (String.eqb b) backends then b else cur.
(** utils.py:14-17 a [use_backend] object: the backend when it was *created*, and the target *)
Record cm := { cm_original : string; cm_target : string }.

(** Client programs: statements, [with] blocks and exceptions.  [With b p] is [with use_backend(b): p]; [New v b] is [v = use_backend(b)];
    [WithObj v p] is [with v: p], and also a call of a function [p] decorated with [v] (contextlib.ContextDecorator enters the object itself);
    [Observe] records get_backend(); [Throw] raises an exception, [Try p q] runs [q] if [p] raises. *)
Inductive prog :=
| Skip | Observe | Throw | SetB (b : string) | Seq (p q : prog) | Try (p q : prog) | Repeat (n : nat) (p : prog)
| With (b : string) (p : prog) | New (v : string) (b : string) | WithObj (v : string) (p : prog).
Record bst := { cur : string; objs : dict cm; seen : list string }.
Definition with_cur (s : bst) (b : string) : bst := {| cur := b; objs := objs s; seen := seen s |}.
(** the flag tells whether an exception is propagating *)
Fixpoint exec (p : prog) (s : bst) : bst * bool :=
  match p with
  | Skip => (s, false)
  | Observe => ({| cur := cur s; objs := objs s; seen := seen s ++ [cur s] |}, false)
  | Throw => (s, true)
  | SetB b => (with_cur s (set_backend (cur s) b), false)
  | Seq p q => let (s', e) := exec p s in if e then (s', true) else exec q s'
  | Try p q => let (s', e) := exec p s in if e then exec q s' else (s', false)
  | Repeat n p => (fix loop n s := match n with O => (s, false) | S m => let (s', e) := exec p s in if e then (s', true) else loop m s' end) n s
  | With b p =>
      (* utils.py:15-23 __init__, __enter__, __exit__ (which returns None: exceptions propagate) *)
      let original := cur s in
      let (s', e) := exec p (with_cur s (set_backend (cur s) b)) in (with_cur s' (set_backend (cur s') original), e)
  | New v b => ({| cur := cur s; objs := dset v {| cm_original := cur s; cm_target := b |} (objs s); seen := seen s |}, false)
  | WithObj v p =>
      match dget v (objs s) with
      | None => (s, true)  (* NameError *)
      | Some c => let (s', e) := exec p (with_cur s (set_backend (cur s) (cm_target c))) in (with_cur s' (set_backend (cur s') (cm_original c)), e)
      end
  end.
Definition bst0 : bst := {| cur := default_backend; objs := []; seen := [] |}.

(** ** lmap *)
Section Maps.
Context {A P : Type}.
(** an argument: None, an array (its rows), or something without shape (a parameter tree) *)
Inductive arg := ANone | Arr (l : list A) | Tree (t : P).
(** what the function gets for it: the whole argument or one row *)
Inductive sarg := Whole (a : arg) | Elem (a : A).
(** what a function returns: an array or a tuple of arrays *)
Inductive out := OArr (v : list R) | OTup (vs : list (list R)).
(** what a mapped function returns: an array with one row per sample or a tuple of such arrays *)
Inductive mout := MArr (rows : list (list R)) | MTup (arrs : list (list (list R))).
(** in_axes: one value for all arguments or a list; true = mapped (0), false = None *)
Inductive axes := AxAll (b : bool) | AxList (l : list bool).
Definition full_axes (ax : axes) (args : list arg) : result (list bool) :=
  match ax with
  | AxAll b => Ok (repeat b (List.length args))
  | AxList l => if Nat.eqb (List.length l) (List.length args) then Ok l else Raise AssertionError
  end.
(** utils.py:124-126, 229-230: the batch size is that of the first argument that is not None; [next] of an empty generator *)
Definition batch_size (args : list arg) : result nat :=
  match find (fun a => match a with ANone => false | _ => true end) args with
  | None => Raise StopIteration
  | Some (Arr l) => Ok (List.length l)
  | Some _ => Raise AttributeError
  end.
(** [a if map_axis is None else a[idx]] *)
Definition sample_arg (idx : nat) (a : arg) (mapped : bool) : result sarg :=
  if mapped then match a with Arr l => match nth_error l idx with Some v => Ok (Elem v) | None => Raise IndexError end | _ => Raise TypeError end else Ok (Whole a).
Definition sample_args (idx : nat) (args : list arg) (ax : list bool) : result (list sarg) := mapM (fun am => sample_arg idx (fst am) (snd am)) (combine args ax).
(** utils.py:240-253: arrays of outputs; np.stack / np.array of rows of different lengths is ValueError (simplification: numpy versions
    that build ragged object arrays are not modelled), and so is a mixture of arrays and tuples *)
Definition stack_rows (vs : list (list R)) : result (list (list R)) :=
  match vs with [] => Raise ValueError | v :: r => if forallb (fun w => Nat.eqb (List.length w) (List.length v)) r then Ok vs else Raise ValueError end.
Definition pick (k : nat) (o : out) : result (list R) := match o with OTup vs => match nth_error vs k with Some v => Ok v | None => Raise IndexError end | OArr _ => Raise ValueError end.
Definition as_arr (o : out) : result (list R) := match o with OArr v => Ok v | OTup _ => Raise ValueError end.
Definition collect (outs : list out) : result mout :=
  match outs with
  | [] => Raise IndexError
  | OTup vs :: _ => fmap MTup (mapM (fun k => bind (mapM (pick k) outs) stack_rows) (seq 0 (List.length vs)))
  | OArr _ :: _ => fmap MArr (bind (mapM as_arr outs) stack_rows)
  end.
(** utils.py:210-253 *)
Definition lmap (fn : list sarg -> result out) (ax : axes) (args : list arg) : result mout :=
  bind (full_axes ax args) (fun fax => bind (batch_size args) (fun n =>
  bind (mapM (fun idx => bind (sample_args idx args fax) fn) (seq 0 n)) collect)).
End Maps.
Arguments arg A P : clear implicits.
Arguments sarg A P : clear implicits.

(** ** cmap *)
(** utils.py:96-207 for a casadi function, as a function from the list of its (column) inputs to its outputs; None arguments and trees cannot be
    passed to casadi.  The state is the cached batch size and mapped function (known by the batch size it was made for). *)
Section Cmap.
Variable fn : list (list R) -> out.
Record cst := { cs_batch : option nat; cs_raw : option nat }.
Definition cst0 : cst := {| cs_batch := None; cs_raw := None |}.
(** [fn.map(n, ...)]: casadi refuses n = 0; the mapped function refuses inputs with another number of columns (rows before the transposition) *)
Definition casadi_map (n : nat) : result nat := if Nat.eqb n 0 then Raise RuntimeError else Ok n.
Definition call_raw (n : nat) (args : list (list (list R))) : result (list out) :=
  if forallb (fun a => Nat.eqb (List.length a) n) args then Ok (map (fun i => fn (map (fun a => nth i a []) args)) (seq 0 n)) else Raise RuntimeError.
(** an argument: a matrix by rows, or a vector for an unmapped argument *)
Inductive carg := CMat (rows : list (list R)) | CVec (v : list R).
Definition c_shape0 (a : carg) : nat := match a with CMat r => List.length r | CVec v => List.length v end.
(** np.tile(a, (batch, 1)) of a vector, or the argument itself; a mapped vector has one column, a tiled matrix is repeated vertically *)
Definition c_prepare (batch : nat) (a : carg) (mapped : bool) : list (list R) :=
  match a with
  | CVec v => if mapped then map (fun x => [x]) v else repeat v batch
  | CMat r => if mapped then r else concat (repeat r batch)
  end.
(** what the array of outputs is; [sparse]: the non-zeros of all samples, reshaped to (batch, nnz) *)
Definition c_collect (sparse : bool) (batch : nat) (outs : list out) : result mout :=
  if sparse then bind (mapM as_arr outs) (fun vs => Ok (MArr (chunks batch (List.length (concat vs) / batch) (concat vs)))) else collect outs.
Definition c_axes (ax : axes) (args : list carg) : result (list bool) :=
  match ax with AxAll b => Ok (repeat b (List.length args)) | AxList l => if Nat.eqb (List.length l) (List.length args) then Ok l else Raise AssertionError end.
(** utils.py:131-149: the cached mapped function is made anew when the batch size changes; the size is remembered first *)
Definition c_refresh (s : cst) (batch : nat) : cst * result unit :=
  if match cs_batch s with Some b => negb (Nat.eqb batch b) | None => true end
  then match casadi_map batch with Ok r => ({| cs_batch := Some batch; cs_raw := Some r |}, Ok tt) | Raise e => ({| cs_batch := Some batch; cs_raw := cs_raw s |}, Raise e) end
  else (s, Ok tt).
Definition cmap (sparse : bool) (ax : axes) (s : cst) (args : list carg) : cst * result mout :=
  match c_axes ax args with
  | Raise e => (s, Raise e)
  | Ok fax =>
      match args with
      | [] => (s, Raise StopIteration)
      | a0 :: _ =>
          let batch := c_shape0 a0 in
          match c_refresh s batch with
          | (s', Raise e) => (s', Raise e)
          | (s', Ok _) =>
              match cs_raw s' with
              | None => (s', Raise TypeError)
              | Some r => (s', bind (call_raw r (map (fun am => c_prepare batch (fst am) (snd am)) (combine args fax))) (c_collect sparse batch))
              end
          end
      end
  end.
Definition cmap_run (sparse : bool) (ax : axes) (h : list (list carg)) : cst := fold_left (fun s args => fst (cmap sparse ax s args)) h cst0.
End Cmap.
