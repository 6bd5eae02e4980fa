(** Model of the derivatives of the model algebra with the backend "jax": nlp.py:22-48, 235-281 and base.py:732-754. *)
From Verif Require Import Base RBase UtilsModel IoModel AlgModel NlpModel ConvModel BuildModel.

Section Jax.
(** jax.jacobian and jax.hessian: a function gives the (dense) matrix of its derivatives.  Oracles: what is assumed of them is in JaxSpec *)
Variable jacobian : (list R -> list R) -> list R -> nat -> nat -> R.
Variable hessian : (list R -> R) -> list R -> nat -> nat -> R.

(** nlp.py:22-48 [_make_lagrangian] (mesh and parameters fixed) *)
Definition lagrangian (constraints : list R -> list R) (x lagrange : list R) : R := vdot lagrange (constraints x).
(** nlp.py:249-253 [_wrap_extract_sparse_vals]: fn(x)[rows, cols], pairwise *)
Definition extract_sparse (m : nat -> nat -> R) (rc : list nat * list nat) : list R := map2 m (fst rc) (snd rc).
(** nlp.py:238-281 [JaxMappedConstraints.__init__]: the jacobian and the hessian of one stage; vmap and jit change no value *)
Definition jax_jac (constraints : list R -> list R) (js : list nat * list nat) (x : list R) : list R := extract_sparse (jacobian constraints x) js.
Definition jax_hess (constraints : list R -> list R) (hs : list nat * list nat) (x lagrange : list R) : list R := extract_sparse (hessian (fun y => lagrangian constraints y lagrange) x) hs.

(** a structure that raises leaves no model (C34 says when); here it is empty *)
Definition structure_of (r : result (list nat * list nat)) : list nat * list nat := match r with Ok s => s | Raise _ => ([], []) end.
(** base.py:732-754 [_make_jax_model_algebra_cons]: the model with these derivatives *)
Definition jax_model {P} (M : smodel P) : smodel P := {|
  m_states := m_states M; m_inputs := m_inputs M; m_outputs := m_outputs M; m_residuals := m_residuals M; m_forward := m_forward M;
  m_jac := fun con w mesh p => jax_jac (fun x => ok_or_nil (flat_implicit (names_of M con) (m_forward M p) x mesh)) (structure_of (jacobianstructure (names_of M con))) w;
  m_hess := fun con w l mesh p => jax_hess (fun x => ok_or_nil (flat_implicit (names_of M con) (m_forward M p) x mesh)) (structure_of (hessianstructure (names_of M con))) w l;
  m_js := fun con => structure_of (jacobianstructure (names_of M con));
  m_hs := fun con => structure_of (hessianstructure (names_of M con)) |}.
End Jax.
