(** Vocabulary for accuracy: motions of a model in continuous time, and the order of a transcription. *)
From Verif Require Import Base RBase UtilsModel CollocModel OcpSpec BuildSpec.

(** the order of the transcription called [name]; [m] is its number of stages per interval *)
Definition order_of (name : string) (m : nat) : nat :=
  if String.eqb name "ForwardEuler" then 1 else if String.eqb name "Trapezoidal" then 2 else if String.eqb name "LGR" then m - 1 else m.

Section Motion.
Variables (st inp : list string).
Variable fwd : dict R -> dict R -> R -> result (dict R * dict R).
(** [d] holds the values [f] of the names *)
Definition carries (names : list string) (f : string -> R) (d : dict R) : Prop := keys d = names /\ forall nm v, dget nm d = Some v -> v = f nm.
(** a motion of the model from [lo] to [hi] under the inputs [u]: [Y nm 0] is the state [nm] as a function, [Y nm k] its k-th derivative, of which there are
    q + 1, the last one bounded by [M]; the first one is what the model computes.  [G] is the region in which everything happens *)
Record motion (G : dict R -> dict R -> R -> Prop) (lo hi : R) (q : nat) (M : R) (u : string -> R -> R) (Y : string -> nat -> R -> R) : Prop := {
  mt_model : forall tau ds di, lo <= tau <= hi -> carries st (fun nm => Y nm 0%nat tau) ds -> carries inp (fun nm => u nm tau) di ->
    G ds di tau /\ exists sd out, fwd ds di tau = Ok (sd, out) /\ forall nm, In nm st -> dget nm sd = Some (Y nm 1%nat tau);
  mt_smooth : forall nm k tau, In nm st -> (k <= q)%nat -> lo <= tau <= hi -> derivable_pt_lim (Y nm k) tau (Y nm (S k) tau);
  mt_bound : forall nm tau, In nm st -> lo <= tau <= hi -> Rabs (Y nm (S q) tau) <= M }.
(** in the region, the state derivatives depend on the states with Lipschitz constant [K] *)
Definition lipschitz (G : dict R -> dict R -> R -> Prop) (K : R) : Prop :=
  forall ds ds' di tau sd out sd' out' E, G ds di tau -> G ds' di tau -> fwd ds di tau = Ok (sd, out) -> fwd ds' di tau = Ok (sd', out') ->
    (forall nm v v', In nm st -> dget nm ds = Some v -> dget nm ds' = Some v' -> Rabs (v - v') <= E) ->
    forall nm w w', In nm st -> dget nm sd = Some w -> dget nm sd' = Some w' -> Rabs (w - w') <= K * E.
End Motion.
