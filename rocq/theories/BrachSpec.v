(** What it means to ride a wire according to the time model, and the time of the cycloid. *)
From Verif Require Import Base RBase BrachModel.

(** the states v, x, y and the slope theta, as functions of time, obey the model on the way from 0 to [T], except at finitely many instants (where the
    slope may jump); gravity [g] *)
Definition rides (g T : R) (th v x y : R -> R) : Prop :=
  (forall t, 0 <= t <= T -> continuity_pt v t /\ continuity_pt x t /\ continuity_pt y t) /\
  exists breaks : list R, forall t, 0 < t < T -> ~ In t breaks ->
    exists dv dx dy out, time_forward [("gravity", g)] [("v", v t); ("x", x t); ("y", y t)] [("theta", th t)] = Ok ([("v", dv); ("x", dx); ("y", dy)], out) /\
      derivable_pt_lim v t dv /\ derivable_pt_lim x t dx /\ derivable_pt_lim y t dy.
(** from rest at the origin to the point (dx, dy), in time [T] *)
Definition descends (g dx dy T : R) (th v x y : R -> R) : Prop :=
  0 <= T /\ rides g T th v x y /\ v 0 = 0 /\ x 0 = 0 /\ y 0 = 0 /\ x T = dx /\ y T = dy.

(** the rolling angle of the first arch of the cycloid through the end point *)
Definition first_arch (dx dy theta2 : R) : Prop := 0 < theta2 < 2 * PI /\ cycloid_f dx dy theta2 = 0.
