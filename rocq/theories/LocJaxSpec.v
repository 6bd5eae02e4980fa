(** Vocabulary: automatic differentiation on the domain of a model. *)
From Verif Require Import Base RBase UtilsModel IoModel AlgModel AlgSpec NlpModel BuildModel JaxSpec LocSpec.

Section Jax.
Variable jac : (list R -> list R) -> list R -> nat -> nat -> R.
Variable hess : (list R -> R) -> list R -> nat -> nat -> R.
(** automatic differentiation finds the derivatives of this function, and of its combinations, at the points of the domain, if it has them there *)
Definition autodiff_on (D : list R -> Prop) (n m : nat) (f : list R -> list R) : Prop :=
  (forall J, jacobian_on D n m f J -> jacobian_on D n m f (jac f)) /\
  forall l H, List.length l = m -> hessian_on D (fun _ _ => True) n (fun x => vdot l (f x)) H -> hessian_on D (fun _ _ => True) n (fun x => vdot l (f x)) (hess (fun x => vdot l (f x))).
Context {P : Type}.
Variable M : smodel P.
Variable dom : R -> dict R -> dict R -> Prop.
Variable con : list string.
Definition autodiff_model (p : P) : Prop := forall mesh, autodiff_on (within M dom mesh) (num_implicit_var (names_of M con)) (num_implicit_res (names_of M con)) (residual (names_of M con) (m_forward M p) mesh).
(** on the domain the state derivatives and the outputs that enter the constraints have second partial derivatives in the states and inputs *)
Definition twice_differentiable_on (p : P) : Prop := forall mesh, let n := (List.length (m_states M) + List.length (m_inputs M))%nat in
  (forall nm, In nm (m_states M) -> exists H, hessian_on (within M dom mesh) (fun _ _ => True) n (derivative_value M p mesh nm) H) /\
  (forall nm, In nm con \/ In nm (m_residuals M) -> exists H, hessian_on (within M dom mesh) (fun _ _ => True) n (output_value M p mesh nm) H).
End Jax.
