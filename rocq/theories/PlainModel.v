(** Model of stateless models (class Model in models/base.py: tires, aero) called with arrays of inputs:
    base.py:148-154, base.py:315-351, base.py:325-335. Values are abstract; inputs come as numpy arrays, so
    reading beyond the end raises IndexError. [set_recursive_params] succeeds (C05 and C36 say when). *)
From Verif Require Import Base IoModel.

Section Plain.
Variables V P : Type.
(** names of the groups "inputs", "outputs" and "residuals" *)
Variable nm : string -> list string.
(** the [forward] of the class with parameters p: (outputs, residuals), as a ModelReturn *)
Variable forward : P -> dict V -> result (dict V * dict V).

(** base.py:325-335 [forward_with_arrays] *)
Definition plain_forward_with_arrays (p : P) (inputs : list V) : result (list V * list V) :=
  bind (array_to_dict (nm "inputs"%string) inputs) (fun d =>
  bind (forward p d) (fun ret =>
  bind (make_vector (nm "outputs"%string) (fst ret)) (fun o =>
  bind (make_vector (nm "residuals"%string) (snd ret)) (fun r => Ok (o, r))))).

(** base.py:287-290 [get_group_names], base.py:315-316 [get_num_vars], base.py:338-339 [num_inputs],
    base.py:342-343 [num_outputs], base.py:346-347 [num_residuals]; a ModelIO has no other group, so that
    base.py:350-351 [num_con_outputs] raises AttributeError *)
Definition plain_num (g : string) : result nat :=
  if existsb (String.eqb g) ["inputs"; "outputs"; "residuals"]%string then Ok (List.length (nm g)) else Raise AttributeError.

(** base.py:319-320 [get_input], base.py:322-323 [get_output] *)
Definition plain_get (g : string) (x : list V) (n : string) : result V :=
  bind (get_var_index (nm g) n) (fun i => match nth_error x i with Some v => Ok v | None => Raise IndexError end).

(** What a user can call; the object holds its parameters *)
Inductive pact :=
| PForward (d : dict V)
| PArrays (x : list V)
| PApply (d : dict V) (p : P)
| PApplyArrays (x : list V) (p : P).

Inductive pres := RDict (o r : dict V) | RArr (o r : list V).

(** base.py:148-150 [apply_and_forward]; base.py:152-154 [apply_and_forward_with_arrays] calls
    [forward_with_array], which does not exist *)
Definition pstep (p : P) (a : pact) : P * result pres :=
  match a with
  | PForward d => (p, fmap (fun r => RDict (fst r) (snd r)) (forward p d))
  | PArrays x => (p, fmap (fun r => RArr (fst r) (snd r)) (plain_forward_with_arrays p x))
  | PApply d q => (q, fmap (fun r => RDict (fst r) (snd r)) (forward q d))
  | PApplyArrays x q => (q, Raise AttributeError)
  end.
Fixpoint prun (p : P) (h : list pact) : list (result pres) :=
  match h with [] => [] | a :: r => snd (pstep p a) :: prun (fst (pstep p a)) r end.
End Plain.
Arguments PForward {V P} d.
Arguments PArrays {V P} x.
Arguments PApply {V P} d p.
Arguments PApplyArrays {V P} x p.
