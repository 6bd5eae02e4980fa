(** Specification vocabulary for the model algebra constraint. *)
From Verif Require Import Base RBase UtilsModel IoModel AlgModel.

Section S.
Variable nm : string -> list string.
Variable forward : dict R -> dict R -> R -> result (dict R * dict R).
(** the value that the flat vector [x] holds for variable [n] of group [g] (C33 says where that is) *)
Definition value_of (x : list R) (g n : string) (v : R) : Prop := exists j, get_var_index_in_flat nm g n = Ok j /\ nth_error x j = Some v.
(** [d] gives exactly the values of group [g] *)
Definition group_dict (x : list R) (g : string) (d : dict R) : Prop := keys d = nm g /\ forall n v, dget n d = Some v <-> In n (nm g) /\ value_of x g n v.
(** the names of an accepted model: states_dot is named like states, names are distinct, constrained outputs and residuals are outputs *)
Definition names_ok : Prop := nm "states_dot" = nm "states" /\ (forall g, In g ("residuals" :: flat_groups) -> NoDup (nm g)) /\
  incl (nm "con_outputs") (nm "outputs") /\ incl (nm "residuals") (nm "outputs").
(** the user's forward returns a value for every declared name *)
Definition forward_ok (mesh : R) : Prop := forall ds di, keys ds = nm "states" -> keys di = nm "inputs" ->
  exists sd out, forward ds di mesh = Ok (sd, out) /\ incl (nm "states_dot") (keys sd) /\ incl (nm "outputs") (keys out).
(** the residual as a function *)
Definition residual (mesh : R) (x : list R) : list R := match flat_implicit nm forward x mesh with Ok v => v | Raise _ => [] end.
(** flat position [j] belongs to group [g] *)
Definition belongs (g : string) (j : nat) : Prop := exists n, get_var_index_in_flat nm g n = Ok j.
End S.
