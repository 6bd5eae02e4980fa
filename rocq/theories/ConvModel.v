(** Model of lumos/optimal_control/convolution.py: a unit problem evaluated on every stage. *)
From Verif Require Import Base RBase UtilsModel NlpModel.

Section Conv.
Context {P : Type}.
(** nlp.py:189-232 [MappedConstraints]: the unit problem; its functions get the window of variables, the mesh point and the parameters *)
Record unitp := {
  u_nin : nat; u_ncon : nat;
  u_f : list R -> R -> P -> list R;
  u_j : list R -> R -> P -> list R;               (* values in the order of the structure, flattened *)
  u_h : list R -> list R -> R -> P -> list R;     (* variables, multipliers, mesh point, parameters *)
  u_js : list nat * list nat; u_hs : list nat * list nat }.

Variables (u : unitp) (op : dvo) (nmesh : list R) (scale_fn : list R -> R).
(** convolution.py:116-119 [_transform_inputs]; utils.py:115-118 [split_stage_and_global_vars] *)
Definition transform_inputs (x : list R) : result (mat R) := batch_conv1d (firstn (num_all_stage_var op) x) (u_nin u) (num_var_stage op).
(** convolution.py:121-122 [_get_mesh] *)
Definition get_mesh (x : list R) : list R := map (fun m => m * scale_fn x) nmesh.
(** nlp.py:222-232 + utils.py:210-253: the mapped functions, one call per window (C37); a mesh (or multiplier array) that is too short is an IndexError *)
Definition lookup_idx {A} (l : list A) (i : nat) : result A := match nth_error l i with Some a => Ok a | None => Raise IndexError end.
Definition mapped {A} (n : nat) (g : nat -> result (list A)) : result (list A) := fmap (@concat A) (mapM g (seq 0 n)).
(** convolution.py:53-59 *)
Definition conv_constraints (p : P) (x : list R) : result (list R) :=
  bind (transform_inputs x) (fun w => mapped (List.length (rows w)) (fun i => bind (lookup_idx (get_mesh x) i) (fun m => Ok (u_f u (nth i (rows w) []) m p)))).
(** convolution.py:61-67 *)
Definition conv_jacobian (p : P) (x : list R) : result (list R) :=
  bind (transform_inputs x) (fun w => mapped (List.length (rows w)) (fun i => bind (lookup_idx (get_mesh x) i) (fun m => Ok (u_j u (nth i (rows w) []) m p)))).
(** convolution.py:69-87; the multipliers are reshaped to (num_stages, num_con) *)
Definition conv_hessian (p : P) (x lam : list R) : result (list R) :=
  bind (transform_inputs x) (fun w =>
  if negb (Nat.eqb (num_stages op * u_ncon u) (List.length lam)) then Raise ValueError else
  let lm := chunks (num_stages op) (u_ncon u) lam in
  mapped (List.length (rows w)) (fun i => bind (lookup_idx lm i) (fun l => bind (lookup_idx (get_mesh x) i) (fun m => Ok (u_h u (nth i (rows w) []) l m p))))).
(** convolution.py:124-149 [_build_jac_and_hess_struct] *)
Definition conv_structs : result ((list nat * list nat) * (list nat * list nat)) :=
  bind (create_offset_structure (fst (u_js u)) (snd (u_js u)) (u_ncon u) (num_var_stage op) (num_stages op)) (fun js =>
  bind (create_offset_structure (fst (u_hs u)) (snd (u_hs u)) (num_var_stage op) (num_var_stage op) (num_stages op)) (fun hs => Ok (js, hs))).
(** convolution.py:15-101: the constructor.  [p] are the parameters given (set_params replaces them: a new [make_conv] with the same scales).
    Simplification: the functions of [bcon] are total, so an exception during an evaluation shows up as an empty array here; the exceptions
    themselves are stated about [conv_constraints], [conv_jacobian] and [conv_hessian]. *)
Definition ok_or_nil {A} (r : result (list A)) : list A := match r with Ok v => v | Raise _ => [] end.
Definition make_conv (p : P) : result bcon :=
  bind conv_structs (fun s => make_con (num_dec op) (num_stages op * u_ncon u) (fun x => ok_or_nil (conv_constraints p x)) (fun x => ok_or_nil (conv_jacobian p x))
    (fun x lam => ok_or_nil (conv_hessian p x lam)) (Some (fst s)) (Some (snd s))).
End Conv.
Arguments unitp P : clear implicits.
