(** Model of lumos/optimal_control/config.py: the configuration dataclasses, [to_dict] and reconstruction from a dictionary. *)
From Verif Require Import Base RBase NlpModel BoundModel.

(** Python values that occur in a configuration.  [PyNum] stands for int, float and bool (compared with ==, where 1 = 1.0 = True); NaN is not modelled.
    [PyObj] is an instance of one of the dataclasses of config.py with its fields in declaration order. *)
Inductive py :=
| PyNone
| PyStr (s : string)
| PyNum (v : ebound)
| PyNd (ndim : nat) (v : list ebound)
| PyList (l : list py)
| PyTuple (l : list py)
| PyDict (d : list (string * py))
| PyObj (cls : string) (fields : list (string * py)).

(** dataclasses.asdict: instances become dictionaries of their fields, lists, tuples and dictionaries are rebuilt with converted elements, anything
    else is deep-copied (the same value) *)
Fixpoint asdict (v : py) : py :=
  match v with
  | PyList l => PyList (map asdict l)
  | PyTuple l => PyTuple (map asdict l)
  | PyDict d => PyDict (map (fun kv => (fst kv, asdict (snd kv))) d)
  | PyObj _ d => PyDict (map (fun kv => (fst kv, asdict (snd kv))) d)
  | _ => v
  end.

(** the generated [__init__] of a dataclass called with keyword arguments: an unknown or a missing argument is a TypeError; the fields are stored in
    declaration order *)
Definition fields_of (spec : list (string * option py)) (kw : list (string * py)) : result (list (string * py)) :=
  if forallb (fun k => existsb (String.eqb k) (map fst spec)) (keys kw)
  then mapM (fun s => match dget (fst s) kw with Some v => Ok (fst s, v) | None => match snd s with Some v => Ok (fst s, v) | None => Raise TypeError end end) spec
  else Raise TypeError.

(** config.py:18-41 [BoundConfig.__post_init__]; two strings are scalars for numpy and are compared too *)
Definition check_values (v : py) : result unit :=
  match v with
  | PyTuple [l; u] | PyList [l; u] =>
      match l, u with
      | PyNum a, PyNum b => if eleb a b then Ok tt else Raise AssertionError
      | PyStr a, PyStr b => if String.leb a b then Ok tt else Raise AssertionError
      | PyNum _, PyStr _ | PyStr _, PyNum _ => Raise TypeError
      | PyNd dl a, PyNd du b =>
          if negb (Nat.eqb dl 1 && Nat.eqb du 1) then Raise AssertionError
          else if negb (Nat.eqb (List.length a) (List.length b)) then Raise AssertionError
          else if all_le a b then Ok tt else Raise AssertionError
      | _, _ => Raise TypeError
      end
  | PyTuple _ | PyList _ => Raise ValueError     (* wrong number of values to unpack *)
  | _ => Raise TypeError                          (* simplification: any other value is taken as not iterable *)
  end.
(** config.py:6-16 *)
Definition bound_spec : list (string * option py) := [("group", None); ("name", None); ("values", None)].
Definition make_bound (kw : list (string * py)) : result py :=
  bind (fields_of bound_spec kw) (fun f => bind (match dget "values" f with Some v => check_values v | None => Raise AttributeError end) (fun _ => Ok (PyObj "BoundConfig" f))).
(** config.py:44-53, not validated *)
Definition scale_spec : list (string * option py) := [("group", None); ("name", None); ("value", None)].
Definition make_scale (kw : list (string * py)) : result py := fmap (PyObj "ScaleConfig") (fields_of scale_spec kw).
(** config.py:56-63, not validated *)
Definition bc_spec : list (string * option py) := [("stage", None); ("group", None); ("name", None); ("value", None)].
Definition make_bc (kw : list (string * py)) : result py := fmap (PyObj "BoundaryConditionConfig") (fields_of bc_spec kw).
(** config.py:71-77 *)
Definition logging_spec : list (string * option py) := [("sim_name", Some (PyStr "simulation")); ("results_dir", Some (PyStr "results")); ("log_every_nth_iter", Some (PyNum (Fin 0)))].
Definition make_logging (kw : list (string * py)) : result py := fmap (PyObj "LoggingConfig") (fields_of logging_spec kw).

(** config.py:124-136 *)
Definition sim_spec : list (string * option py) :=
  [("num_intervals", Some (PyNum (Fin 99))); ("interval_points", Some PyNone); ("transcription", Some (PyStr "Trapezoidal")); ("is_cyclic", Some (PyNum (Fin 0)));
   ("non_cyclic_vars", Some (PyList [])); ("is_condensed", Some (PyNum (Fin 0))); ("backend", Some (PyStr "jax")); ("hessian_approximation", Some (PyStr "exact"));
   ("boundary_conditions", Some (PyTuple [])); ("bounds", Some (PyTuple [])); ("scales", Some (PyTuple [])); ("con_output_names", Some (PyTuple [])); ("logging_config", Some PyNone)].

(** [isinstance(v, dict)] and [cls ** v] *)
Definition is_dict (v : py) : bool := match v with PyDict _ => true | _ => false end.
Definition call_kw (mk : list (string * py) -> result py) (v : py) : result py := match v with PyDict d => mk d | _ => Raise TypeError end.
(** config.py:148-157: [if v and isinstance(v[0], dict): v = tuple(cls ** d for d in v)].  Simplification: of numpy arrays only one-dimensional ones occur here. *)
Definition deserialize (mk : list (string * py) -> result py) (v : py) : result py :=
  match v with
  | PyList [] | PyTuple [] | PyNone | PyStr "" | PyDict [] => Ok v
  | PyList (a :: r) | PyTuple (a :: r) => if is_dict a then fmap PyTuple (mapM (call_kw mk) (a :: r)) else Ok v
  | PyStr _ => Ok v
  | PyDict _ => Raise KeyError
  | PyNum (Fin x) => if Req_EM_T x 0 then Ok v else Raise TypeError
  | PyNum _ => Raise TypeError
  | PyNd _ (_ :: _ :: _) => Raise ValueError
  | PyNd _ _ => Ok v
  | PyObj _ _ => Raise TypeError
  end.
(** a field of an object being replaced *)
Definition on_field (n : string) (f : py -> result py) (d : list (string * py)) : result (list (string * py)) :=
  match dget n d with None => Raise AttributeError | Some v => bind (f v) (fun v' => Ok (dset n v' d)) end.
(** config.py:138-157 [__post_init__] *)
Definition sim_post (f : list (string * py)) : result (list (string * py)) :=
  bind (on_field "transcription" (fun v => Ok (match v with PyStr s => PyTuple [PyStr s] | _ => v end)) f) (fun f =>
  bind (on_field "bounds" (deserialize make_bound) f) (fun f =>
  bind (on_field "scales" (deserialize make_scale) f) (fun f =>
  on_field "boundary_conditions" (deserialize make_bc) f))).
Definition make_sim (kw : list (string * py)) : result py := bind (fields_of sim_spec kw) (fun f => fmap (PyObj "SimConfig") (sim_post f)).
(** config.py:159-161 [to_dict] *)
Definition to_dict (c : py) : py := asdict c.
(** [SimConfig] called with the dictionary as keyword arguments *)
Definition from_dict (d : py) : result py := call_kw make_sim d.

(** reading an attribute: a plain dictionary has none of the fields *)
Definition attr (n : string) (v : py) : result py := match v with PyObj _ d => match dget n d with Some x => Ok x | None => Raise AttributeError end | _ => Raise AttributeError end.
