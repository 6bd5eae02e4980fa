(** Model of lumos/models/base.py:508-602, 661-730: the model algebra constraint of a state space model and its declared sparsity. *)
From Verif Require Import Base RBase TreeModel UtilsModel IoModel.

Section Alg.
(** names of the groups; the user's [forward] (with its parameters): states, inputs, mesh -> states_dot and outputs *)
Variable nm : string -> list string.
Variable forward : dict R -> dict R -> R -> result (dict R * dict R).

(** base.py:482-486 [_extract_residuals], [_extract_con_outputs] *)
Definition extract (g : string) (outputs : dict R) : result (dict R) :=
  fmap (@dict_of_list R) (mapM (fun c => fmap (pair c) (lookup_err c outputs)) (nm g)).
(** base.py:508-530 [forward_with_arrays]: (states_dot, outputs, con_outputs, residuals) *)
Definition forward_with_arrays (states inputs : list R) (mesh : R) : result (list R * list R * list R * list R) :=
  bind (array_to_dict (nm "states") states) (fun ds =>
  bind (array_to_dict (nm "inputs") inputs) (fun di =>
  bind (forward ds di mesh) (fun ret =>
  bind (make_vector (nm "states_dot") (fst ret)) (fun sd =>
  bind (make_vector (nm "outputs") (snd ret)) (fun out =>
  bind (extract "con_outputs" (snd ret)) (fun dc => bind (make_vector (nm "con_outputs") dc) (fun con =>
  bind (extract "residuals" (snd ret)) (fun dr => bind (make_vector (nm "residuals") dr) (fun res =>
  Ok (sd, out, con, res)))))))))).
(** base.py:532-572 [implicit]; the subtractions are of vectors of equal length whenever the flat vector has the right length *)
Definition implicit (states inputs states_dot con_outputs : list R) (mesh : R) : result (list R) :=
  bind (forward_with_arrays states inputs mesh) (fun r =>
  let '(sd, _, con, res) := r in Ok (vsub sd states_dot ++ vsub con con_outputs ++ res)).
(** base.py:583-595 [_apply_and_flat_implicit] *)
Definition flat_implicit (x : list R) (mesh : R) : result (list R) :=
  let d := split_flat nm x in
  let g k := match dget k d with Some v => v | None => [] end in
  implicit (g "states") (g "inputs") (g "states_dot") (g "con_outputs") mesh.

(** base.py:661-702 [_model_algebra_jacobianstructure]; np.stack of an empty list raises ValueError *)
Definition jacobianstructure : result (list nat * list nat) :=
  let nres := num_implicit_res nm in
  let ns := List.length (nm "states") in
  let k := (ns + List.length (nm "inputs"))%nat in
  bind (get_group_indices_in_flat nm "states") (fun xs => bind (get_group_indices_in_flat nm "inputs") (fun us =>
  bind (get_group_indices_in_flat nm "states_dot") (fun ds => bind (get_group_indices_in_flat nm "con_outputs") (fun cs =>
  if orb (Nat.eqb k 0) (Nat.eqb nres 0) then Raise ValueError else
  Ok (concat (map (fun r => repeat r k) (seq 0 nres)) ++ seq 0 ns ++ map (Nat.add ns) (seq 0 (List.length (nm "con_outputs"))),
      concat (repeat (xs ++ us) nres) ++ ds ++ cs))))).
(** base.py:704-730 [_model_algebra_hessianstructure] *)
Definition hessianstructure : result (list nat * list nat) :=
  let n := num_implicit_var nm in
  bind (get_group_indices_in_flat nm "states_dot") (fun ds => bind (get_group_indices_in_flat nm "con_outputs") (fun cs =>
  let keep i := negb (existsb (Nat.eqb i) (ds ++ cs)) in
  let pairs := filter (fun rc => andb (keep (fst rc)) (keep (snd rc))) (list_prod (seq 0 n) (seq 0 n)) in
  Ok (map fst pairs, map snd pairs))).
End Alg.
