(** Model of lumos/models/composition.py: registry, building from a configuration, recursive parameters.

    Simplifications: a class is given by its name, its default submodel types and its default parameters (the three class methods a
    user implements; they are taken to be constants); instances are values, so a method that mutates [self] returns the new model;
    the config/parameter trees are those of TreeModel. *)
From Verif Require Import Base TreeModel.

Section Comp.
Context {V : Type}.

(** composition.py:88-150, 183-194: what a class provides: [__name__], [get_default_submodel_config], [get_default_params] *)
Record mclass : Type := { cname : string; csubs : dict string; cdefaults : dict V }.
Definition registry : Type := dict mclass.

(** composition.py:38-46 [get_model_class] *)
Definition get_model_class (reg : registry) (tn : string) : result mclass := lookup_err tn reg.
(** composition.py:64-78 [add_to_registry] *)
Definition add_to_registry (reg : registry) (c : mclass) : result registry :=
  if dmem (cname c) reg then Raise ValueError else Ok (dset (cname c) c reg).
(** composition.py:80-85 [remove_from_registry] *)
Definition remove_from_registry (reg : registry) (c : mclass) : result registry :=
  if dmem (cname c) reg then Ok (ddel (cname c) reg) else Raise KeyError.

(** a history of calls on the registry; a call that raises leaves it unchanged *)
Inductive rop := RAdd (c : mclass) | RRemove (c : mclass).
Definition rstep (reg : registry) (op : rop) : result registry :=
  match op with RAdd c => add_to_registry reg c | RRemove c => remove_from_registry reg c end.
Definition rrun (h : list rop) : registry := fold_left (fun reg op => match rstep reg op with Ok r => r | Raise _ => reg end) h [].

(** composition.py:139-150 [get_recursive_default_model_config] (through [make_config], 48-52); [fuel] is Python's recursion limit *)
Fixpoint default_config (fuel : nat) (reg : registry) (c : mclass) : result (tree string) :=
  match fuel with
  | O => Raise RecursionError
  | S f => foldM (fun t nt => bind (get_model_class reg (snd nt)) (fun c' => bind (default_config f reg c') (fun s => Ok (add_child (fst nt) s t))))
             (csubs c) (Node (cname c) [])
  end.
(** composition.py:48-52 [make_config] *)
Definition make_config (fuel : nat) (reg : registry) (tn : string) : result (tree string) :=
  bind (get_model_class reg tn) (default_config fuel reg).

(** a model instance: its class, [_params], [_submodels] *)
Inductive model : Type := M (c : mclass) (params : dict V) (subs : list (string * model)).
Definition mcls (m : model) := match m with M c _ _ => c end.
Definition mparams (m : model) := match m with M _ p _ => p end.
Definition msubs (m : model) : dict model := match m with M _ _ s => s end.
Definition mtype (m : model) : string := cname (mcls m).

(** composition.py:196-204 [get_recursive_default_params]; repeated [add_child] *)
Fixpoint default_params (m : model) : ptree V :=
  match m with M c _ s => Node (cdefaults c) (dict_of_list (map (fun nm => (fst nm, default_params (snd nm))) s)) end.
(** composition.py:222-233 [get_recursive_params] *)
Fixpoint get_rec (m : model) : ptree V :=
  match m with M _ p s => Node p (dict_of_list (map (fun nm => (fst nm, get_rec (snd nm))) s)) end.
(** composition.py:206-220 [set_recursive_params]: the new state and the exception if any *)
Fixpoint set_rec (m : model) (p : ptree V) : model * option exn :=
  match m with
  | M c _ s =>
      let '(s', e) :=
        (fix loop (l : list (string * model)) : list (string * model) * option exn :=
           match l with
           | [] => ([], None)
           | (n, sm) :: r =>
               match get_child n p with
               | Raise e => ((n, sm) :: r, Some e)
               | Ok q => match set_rec sm q with
                         | (sm', Some e) => ((n, sm') :: r, Some e)
                         | (sm', None) => let '(r', e) := loop r in ((n, sm') :: r', e)
                         end
               end
           end) s in
      (M c (tdata p) s', e)
  end.
Fixpoint set_loop (l : list (string * model)) (p : ptree V) : list (string * model) * option exn :=
  match l with
  | [] => ([], None)
  | (n, sm) :: r =>
      match get_child n p with
      | Raise e => ((n, sm) :: r, Some e)
      | Ok q => match set_rec sm q with
                | (sm', Some e) => ((n, sm') :: r, Some e)
                | (sm', None) => let '(r', e) := set_loop r p in ((n, sm') :: r', e)
                end
      end
  end.

(** composition.py:105-119, the end of [__init__]: the parameters of a freshly built instance *)
Definition init_params (m : model) (params : option (ptree V)) : result model :=
  match set_rec m (match params with Some p => p | None => default_params m end) with
  | (m', None) => Ok m'
  | (_, Some e) => Raise e
  end.
(** composition.py:54-59 [make_model_from_config], 89-119 [__init__] without params, 152-159 [_build_submodels] *)
Fixpoint make_model (reg : registry) (cfg : tree string) : result model :=
  match cfg with
  | Node tn ch =>
      bind (get_model_class reg tn) (fun c =>
      if negb (String.eqb tn (cname c)) then Raise TypeError else
      let built := map (fun nc => (fst nc, make_model reg (snd nc))) ch in
      bind (mapM (fun nt => match dget (fst nt) built with None => Raise KeyError | Some r => fmap (pair (fst nt)) r end) (csubs c)) (fun subs =>
      init_params (M c [] subs) None))
  end.
(** composition.py:89-119: the constructor as called by a user on class [c] *)
Definition construct (fuel : nat) (reg : registry) (c : mclass) (cfg : option (tree string)) (params : option (ptree V)) : result model :=
  bind (match cfg with Some t => Ok t | None => default_config fuel reg c end) (fun t =>
  if negb (String.eqb (tdata t) (cname c)) then Raise TypeError else
  bind (mapM (fun nt => match dget (fst nt) (tchildren t) with None => Raise KeyError | Some s => fmap (pair (fst nt)) (make_model reg s) end) (csubs c)) (fun subs =>
  init_params (M c [] subs) params)).

(** composition.py:161-179 [get_submodel] *)
Fixpoint mwalk (names : list string) (m : model) : result model :=
  match names with
  | [] => Ok m
  | n :: r => match dget n (msubs m) with None => Raise KeyError | Some s => mwalk r s end
  end.
Definition get_submodel (delim : ascii) (path : string) (m : model) : result model := mwalk (split delim path) m.

(** base.py:630-659 [make_model_algebra_cons]: [effect] is what the tracing does to the parameters *)
Definition make_model_algebra_cons (backend : string) (effect : model -> model) (m : model) : model * option exn :=
  match from_dict (to_dict (get_rec m)) with
  | Raise e => (m, Some e)
  | Ok saved => if existsb (String.eqb backend) ["casadi"; "jax"; "custom"] then set_rec (effect m) saved else (m, Some ValueError)
  end.
End Comp.
Arguments mclass V : clear implicits.
Arguments model V : clear implicits.
Arguments registry V : clear implicits.
Arguments rop V : clear implicits.
