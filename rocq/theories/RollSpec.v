(** Vocabulary: explicit Euler steps, and running a test under backends. *)
From Verif Require Import Base RBase NumpySpec.
Import ListNotations.
Open Scope R_scope.

(** [path 0], ..., [path n] are states n explicit Euler steps of length [h] apart: every state moves by [h] times its derivative at the beginning of the step; [outs k] are the outputs there *)
Definition euler_steps (fwd : dict R -> dict R -> R -> result (dict R * dict R)) (inputs : dict R) (h : R) (n : nat) (path outs : nat -> dict R) : Prop :=
  forall k, (k < n)%nat -> exists sd, fwd (path k) inputs (INR k * h) = Ok (sd, outs k) /\ keys (path (S k)) = keys (path k) /\
    forall nm v, dget nm (path k) = Some v -> exists d, dget nm sd = Some d /\ dget nm (path (S k)) = Some (v + h * d).
(** the backend a test asks for, if there is one of that name; otherwise the one in force before *)
Definition backend_for (before asked b : string) : Prop := (valid asked /\ b = asked) \/ (~ valid asked /\ b = before).
