(** A car next to a curve in the plane. *)
From Verif Require Import Base RBase.
From Coq Require Export Rtrigo1.

(** at arc length s, the curve (cx, cy) runs in the direction of its heading, and the heading turns with the curvature *)
Definition track_at (cx cy heading curvature : R -> R) (s : R) : Prop :=
  derivable_pt_lim cx s (cos (heading s)) /\ derivable_pt_lim cy s (sin (heading s)) /\ derivable_pt_lim heading s (curvature s).
(** the point at distance n to the left of the curve *)
Definition left_of_x (cx heading n : R -> R) (s : R) : R := cx s - n s * sin (heading s).
Definition left_of_y (cy heading n : R -> R) (s : R) : R := cy s + n s * cos (heading s).
(** components in the plane of a velocity given in the axes (forward, left) of a car that points in direction psi *)
Definition world_x (psi vx vy : R) : R := vx * cos psi - vy * sin psi.
Definition world_y (psi vx vy : R) : R := vx * sin psi + vy * cos psi.
