(** Model of raveling parameters that are numpy values or CasADi matrices (lumos/models/tree_utils.py
    228-317) and of how a model compiled with CasADi gets its parameters (lumos/models/base.py 780-917).
    TreeModel has the numpy branch only; here both branches and the dispatch between them.

    Simplifications: CasADi matrices are dense; sums of numpy and CasADi values in one [np.hstack] raise
    TypeError here (the code never mixes them). *)
From Verif Require Import Base TreeModel RBase AeroModel.

(** A parameter value: a numpy value (scalar, or array with its elements in C order), or a CasADi matrix
    (SX, MX or DM) with its entries column by column, the order CasADi stores them in and in which its
    [reshape], [vertsplit] and [numel] count. *)
Inductive pval (A : Type) : Type :=
| PNum (x : leaf A)
| PCas (rows cols : nat) (entries : list A).
Arguments PNum {A} x.
Arguments PCas {A} rows cols entries.

Section Cp.
Context {A : Type}.

(** tree_utils.py:228-229 [_is_casadi_instance] *)
Definition is_cas (x : pval A) : bool := match x with PNum _ => false | PCas _ _ _ => true end.

(** tree_utils.py:232-238 [_size] *)
Definition psize (x : pval A) : nat := match x with PNum l => lsize l | PCas _ _ e => List.length e end.
(** tree_utils.py:241-245 [_shape] *)
Definition pshape (x : pval A) : list nat := match x with PNum l => lshape l | PCas r c _ => [r; c] end.

(** CasADi's [reshape]: the entries stay in column-major order; RuntimeError if their number changes *)
Definition cas_reshape (e : list A) (r c : nat) : result (pval A) :=
  if Nat.eqb (r * c)%nat (List.length e) then Ok (PCas r c e) else Raise RuntimeError.

(** tree_utils.py:252-256 [_ravel]; np.ravel of an array is its elements in C order *)
Definition pravel (x : pval A) : result (pval A) :=
  match x with
  | PNum l => Ok (PNum (LArray [lsize l] (lravel l)))
  | PCas r c e => cas_reshape e (List.length e) 1
  end.

(** tree_utils.py:259-264 [_split]: the offsets are 0, the cumulated sizes without the last one, and (for
    CasADi) the end; [cas.vertsplit] cuts rows and raises RuntimeError when the offsets decrease *)
Definition psplit (arr : pval A) (sizes : list nat) : result (list (list A)) :=
  match arr with
  | PNum (LScalar _) => Raise IndexError
  | PNum (LArray _ e) => Ok (split_sizes sizes e)
  | PCas r c e =>
      if Nat.eqb c 1 then
        if Nat.leb (fold_right Nat.add 0%nat (removelast sizes)) r then Ok (split_sizes sizes e) else Raise RuntimeError
      else Raise NotImplementedError
  end.

(** tree_utils.py:267-271 [_concat], on raveled values *)
Definition pconcat (l : list (pval A)) : result (pval A) :=
  match l with
  | [] => Raise IndexError
  | PCas _ _ _ :: _ =>
      let e := concat (map (fun x => match x with PNum v => lravel v | PCas _ _ e => e end) l) in
      Ok (PCas (List.length e) 1 e)
  | PNum _ :: _ =>
      fmap (fun es => PNum (LArray [List.length (concat es)] (concat es)))
           (mapM (fun x => match x with PNum v => Ok (lravel v) | PCas _ _ _ => Raise TypeError end) l)
  end.

(** tree_utils.py:292-313 [unravel] with a CasADi chunk: [chunk.reshape(shape)] after 295-301, else [chunk[0]].
    CasADi has no arrays of more than two dimensions and no () shape: NotImplementedError (no such
    overload); [chunk[0]] of an empty chunk is out of bounds: RuntimeError *)
Definition cas_reconstruct (chunk : list A) (shape : list nat) : result (pval A) :=
  if Nat.ltb 1 (List.length chunk) then
    match shape with
    | [n] => cas_reshape chunk n 1
    | [r; c] => cas_reshape chunk r c
    | _ => Raise NotImplementedError
    end
  else match chunk with a :: _ => Ok (PCas 1 1 [a]) | [] => Raise RuntimeError end.

(** tree_utils.py:283-317 [_ravel_flat_dict]: the raveled vector *)
Definition pravel_dict (d : dict (pval A)) : result (pval A) :=
  match d with
  | [] => Ok (PNum (LArray [0%nat] []))
  | _ => bind (mapM pravel (values d)) pconcat
  end.
(** ... and the inner [unravel] *)
Definition punravel_dict (d : dict (pval A)) (arr : pval A) : result (dict (pval A)) :=
  match d with
  | [] => Ok []
  | _ =>
      bind (psplit arr (map psize (values d))) (fun chunks =>
      fmap (fun vs => dict_of_list (combine (keys d) vs))
           (mapM (fun cs => if is_cas arr then cas_reconstruct (fst cs) (snd cs)
                            else fmap PNum (reconstruct (fst cs) (snd cs)))
                 (combine chunks (map pshape (values d)))))
  end.

(** tree_utils.py:195-209 [tree_ravel] *)
Definition ptree_ravel (dummy : pval A) (t : ptree (pval A))
  : result (pval A * (pval A -> result (ptree (pval A)))) :=
  bind (tree_flatten dummy t) (fun fa =>
    let flat_dict := dict_of_list (combine (snd (snd fa)) (fst fa)) in
    fmap (fun v => (v, fun arr => bind (punravel_dict flat_dict arr) (fun d => tree_unflatten (snd fa) (values d))))
         (pravel_dict flat_dict)).

(** base.py:780-886 [_make_casadi_model_algebra_cons] and base.py:888-949 [export_c_code], as far as parameters go: the
    functions are built on [unravel(cas_flat_params)], with [unravel] from raveling the model's numpy
    parameters [t0], [cas_flat_params] a symbol of the length of the flat numpy array; they are later
    evaluated at the flat array of the current numpy parameters [t] (base.py:859, convolution.py:103-112,
    model_solver.py:63). The result: the parameters a compiled function works with. A symbol has a value for
    each of its elements, so evaluating the symbolic expression is unraveling the values. *)
Definition compiled_params (dummy : pval A) (t0 t : ptree (pval A)) : result (ptree (pval A)) :=
  bind (ptree_ravel dummy t0) (fun vu =>
  bind (ptree_ravel dummy t) (fun wu =>
  match fst wu with
  | PNum x => if Nat.eqb (lsize x) (psize (fst vu)) then snd vu (PCas (lsize x) 1 (lravel x)) else Raise RuntimeError
  | PCas _ _ _ => Raise TypeError
  end)).
End Cp.

(** The rows of a matrix parameter, as [ml.py] uses it with [@] and [lnp.sum(axis=1)]: for a numpy array
    and for a CasADi matrix *)
Definition prows (x : pval R) : list (list R) :=
  match x with
  | PNum (LScalar a) => [[a]]
  | PNum (LArray [r; c] e) => map (fun i => map (fun j => nth (i * c + j)%nat e 0) (seq 0 c)) (seq 0 r)
  | PNum (LArray _ e) => map (fun v => [v]) e
  | PCas r c e => map (fun i => map (fun j => nth (j * r + i)%nat e 0) (seq 0 c)) (seq 0 r)
  end.

(** aero.py:98-111 [MLPAero.forward] and aero.py:49-57 [GPAero.forward] with the parameters of the model in the tree [t] *)
Definition mlp_with (params : dict (pval R)) (inputs : dict R) : result (dict R) :=
  mlp_aero (map (fun kv => (fst kv, prows (snd kv))) params) inputs.
Definition gp_with (params : dict (pval R)) (inputs : dict R) : result (dict R) :=
  bind (lookup_err "gp_points" params) (fun p => bind (lookup_err "alpha" params) (fun a =>
  gp_aero (prows p) (prows a) inputs)).
