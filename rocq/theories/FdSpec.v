(** What a finite difference formula is. *)
From Verif Require Import Base RBase CollocModel.

(** [g] is the m-th derivative of [f] *)
Definition nth_derivative (m : nat) (f g : R -> R) : Prop :=
  exists gs : nat -> R -> R, (forall t, gs 0%nat t = f t) /\ (forall i t, (i < m)%nat -> derivable_pt_lim (gs i) t (gs (S i) t)) /\ forall t, gs m t = g t.
(** the weights [w] on the grid [x] give the m-th derivative at x0 of every polynomial with fewer coefficients than there are grid points, plus one *)
Definition exact_on_polynomials (x : list R) (x0 : R) (m : nat) (w : list R) : Prop :=
  forall p g, (List.length p <= List.length x)%nat -> nth_derivative m (peval p) g ->
    rsum (map2 (fun wi xi => wi * peval p xi) w x) = g x0.
