(** Vocabulary: derivatives on a domain. *)
From Verif Require Import Base RBase UtilsModel IoModel CollocModel OcpModel AlgModel AlgSpec NlpModel BoundSpec ScaleModel BuildModel BuildSpec.

(** around every point of the domain there is room to move along each coordinate *)
Definition roomy (n : nat) (D : list R -> Prop) : Prop :=
  forall x k, List.length x = n -> D x -> (k < n)%nat -> exists e, 0 < e /\ forall t, Rabs (t - vget k x) < e -> D (upd k t x).
(** [J] is the jacobian of [f], [g] its gradient, [H] its second derivatives (those with [T]), at every point of the domain *)
Definition jacobian_on (D : list R -> Prop) (n m : nat) (f : list R -> list R) (J : list R -> nat -> nat -> R) : Prop :=
  forall x i j, List.length x = n -> D x -> (i < m)%nat -> (j < n)%nat -> pderiv (fun y => vget i (f y)) x j (J x i j).
Definition gradient_on (D : list R -> Prop) (n : nat) (f : list R -> R) (g : list R -> nat -> R) : Prop :=
  forall x j, List.length x = n -> D x -> (j < n)%nat -> pderiv f x j (g x j).
Definition hessian_on (D : list R -> Prop) (T : nat -> nat -> Prop) (n : nat) (f : list R -> R) (H : list R -> nat -> nat -> R) : Prop :=
  exists g, gradient_on D n f g /\
    forall x j k, List.length x = n -> D x -> (j < n)%nat -> (k < n)%nat -> T j k -> pderiv (fun y => g y j) x k (H x j k).

(** ** The domain of a model: positions on the mesh, states and inputs *)
Section Dom.
Context {P : Type}.
Variable M : smodel P.
Variable dom : R -> dict R -> dict R -> Prop.
(** the values of the states and then of the inputs (and of anything after them) are in the domain *)
Definition within (mesh : R) (w : list R) : Prop :=
  dom mesh (combine (m_states M) (firstn (List.length (m_states M)) w)) (combine (m_inputs M) (firstn (List.length (m_inputs M)) (skipn (List.length (m_states M)) w))).
Definition open_domain : Prop := forall mesh, roomy (List.length (m_states M) + List.length (m_inputs M)) (within mesh).
(** the derivative functions of the model algebra are exact on the domain *)
Definition derivatives_on (con : list string) (p : P) : Prop := forall mesh,
  let nin := num_implicit_var (names_of M con) in let res := residual (names_of M con) (m_forward M p) mesh in
  jacobian_on (within mesh) nin (num_implicit_res (names_of M con)) res (fun w => tri (fst (m_js M con)) (snd (m_js M con)) (m_jac M con w mesh p)) /\
  forall l, List.length l = num_implicit_res (names_of M con) ->
    hessian_on (within mesh) (fun i j => (i <= j)%nat) nin (fun w => vdot l (res w)) (fun w => tri (fst (m_hs M con)) (snd (m_hs M con)) (m_hess M con w l mesh p)).
End Dom.
(** every stage of a trajectory is in the domain *)
Definition stays_in (o : ocp) (st inp : list string) (t : transcription) (n : nat) (pts : list R) (fixed : option R) (dom : R -> dict R -> dict R -> Prop) (x : list R) : Prop :=
  forall i j, (i < n)%nat -> (j < t_stages t)%nat -> exists L ds di, mesh_length o fixed x L /\ holds o x "states" st (stage_of t i j) ds /\ holds o x "inputs" inp (stage_of t i j) di /\
    dom ((nth i pts 0 + unit_point t j * interval_length pts i) * L) ds di.
