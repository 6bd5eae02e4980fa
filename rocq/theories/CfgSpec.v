(** Specification vocabulary for configurations. *)
From Verif Require Import Base RBase NlpModel BoundModel CfgModel.

(** a value in which no configuration object occurs *)
Fixpoint plain (v : py) : bool :=
  match v with
  | PyList l => forallb plain l
  | PyTuple l => forallb plain l
  | PyDict d => forallb (fun kv => plain (snd kv)) d
  | PyObj _ _ => false
  | _ => true
  end.
(** an element of [bounds] / [scales] / [boundary_conditions]: the result of the class's constructor on plain arguments *)
Definition built_by (mk : list (string * py) -> result py) (o : py) : Prop := exists kw, mk kw = Ok o /\ forallb (fun kv => plain (snd kv)) kw = true.
(** the fields that hold configuration objects *)
Definition special (n : string) : Prop := n = "bounds" \/ n = "scales" \/ n = "boundary_conditions" \/ n = "logging_config".
(** a configuration used as documented: tuples of configuration objects, an optional logging configuration, plain values elsewhere *)
Definition documented (kw : list (string * py)) : Prop :=
  (forall n v, dget n kw = Some v -> ~ special n -> plain v = true) /\
  (forall v, dget "bounds" kw = Some v -> exists l, v = PyTuple l /\ Forall (built_by make_bound) l) /\
  (forall v, dget "scales" kw = Some v -> exists l, v = PyTuple l /\ Forall (built_by make_scale) l) /\
  (forall v, dget "boundary_conditions" kw = Some v -> exists l, v = PyTuple l /\ Forall (built_by make_bc) l) /\
  (forall v, dget "logging_config" kw = Some v -> v = PyNone \/ built_by make_logging v).

(** valid bounds, as documented: both scalars or both one-dimensional arrays of the same length, lower below upper everywhere *)
Definition valid_bounds (v : py) : Prop :=
  (exists a b, (v = PyTuple [PyNum a; PyNum b] \/ v = PyList [PyNum a; PyNum b]) /\ eleb a b = true) \/
  (exists a b, (v = PyTuple [PyStr a; PyStr b] \/ v = PyList [PyStr a; PyStr b]) /\ String.leb a b = true) \/
  (exists a b, (v = PyTuple [PyNd 1 a; PyNd 1 b] \/ v = PyList [PyNd 1 a; PyNd 1 b]) /\ List.length a = List.length b /\
     forall i x y, nth_error a i = Some x -> nth_error b i = Some y -> eleb x y = true).
