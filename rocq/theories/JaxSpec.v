(** Vocabulary: automatic differentiation, and models that are twice differentiable. *)
From Verif Require Import Base RBase UtilsModel IoModel AlgModel AlgSpec NlpModel BuildModel.

(** automatic differentiation finds the derivatives of every function that has them *)
Record autodiff_ok (jacobian : (list R -> list R) -> list R -> nat -> nat -> R) (hessian : (list R -> R) -> list R -> nat -> nat -> R) : Prop := {
  ad_jac : forall n m f J, is_jacobian n m f J -> is_jacobian n m f (jacobian f);
  ad_hess : forall n f H, is_hessian n f H -> is_hessian n f (hessian f) }.

(** what a model computes for one name, as a function of the values of its states and then its inputs *)
Section Smooth.
Context {P : Type}.
Variable M : smodel P.
Definition called (p : P) (mesh : R) (w : list R) : result (dict R * dict R) :=
  m_forward M p (combine (m_states M) (firstn (List.length (m_states M)) w)) (combine (m_inputs M) (skipn (List.length (m_states M)) w)) mesh.
Definition derivative_value (p : P) (mesh : R) (nm : string) (w : list R) : R :=
  match called p mesh w with Ok (sd, _) => match dget nm sd with Some v => v | None => 0 end | Raise _ => 0 end.
Definition output_value (p : P) (mesh : R) (nm : string) (w : list R) : R :=
  match called p mesh w with Ok (_, out) => match dget nm out with Some v => v | None => 0 end | Raise _ => 0 end.
(** the state derivatives and the outputs that enter the constraints have second partial derivatives in the states and inputs *)
Definition twice_differentiable (con : list string) : Prop := forall p mesh, let n := (List.length (m_states M) + List.length (m_inputs M))%nat in
  (forall nm, In nm (m_states M) -> exists H, is_hessian n (derivative_value p mesh nm) H) /\
  (forall nm, In nm con \/ In nm (m_residuals M) -> exists H, is_hessian n (output_value p mesh nm) H).
(** an accepted declaration: names distinct in every group, constrained outputs and residuals among the outputs, no dots, at least one state;
    [forward] returns a value for everything declared *)
Record declared_ok (con : list string) : Prop := {
  dc_names : NoDup (m_states M) /\ NoDup (m_inputs M) /\ NoDup con /\ NoDup (m_residuals M) /\ incl con (m_outputs M) /\ incl (m_residuals M) (m_outputs M);
  dc_dots : forall nm, In nm (m_states M) \/ In nm (m_inputs M) -> no_char dot nm = true;
  dc_states : m_states M <> [];
  dc_forward : forall p ds di mesh, keys ds = m_states M -> keys di = m_inputs M ->
    exists sd out, m_forward M p ds di mesh = Ok (sd, out) /\ incl (m_states M) (keys sd) /\ incl (m_outputs M) (keys out) }.
End Smooth.
