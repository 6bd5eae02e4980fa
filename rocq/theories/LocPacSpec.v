(** Vocabulary: where the force curves of the MF5.2 tire have no kinks and no gaps. *)
From Coq Require Import Ratan Rpower.
From Verif Require Import Base RBase PacSpec.

Section Tire.
Variable p : string -> R.
(** at a load change [f], a camber angle, a load and slips: both forces have a peak, their slopes are defined, the limit on the curvature (it counts as 1 above 1) is not just reached on either side
    of zero slip, and the weights of combined slip are defined *)
Record smooth_point (f gamma Fz kappa alpha : R) : Prop := {
  sp_long_peak : long_peak p f gamma Fz <> 0;
  sp_long_slope : forall s, sign_of (long_peak p f gamma Fz) s -> p "PCX1" * p "LCX" * long_peak p f gamma Fz + p "epsilonx" * s <> 0;
  sp_long_curvature : long_curvature p f 1 <> 1 /\ long_curvature p f (-1) <> 1;
  sp_long_limit : p "REX1" + p "REX2" * f <> 1;
  sp_long_weight : hill (p "RCX1") (p "REX1" + p "REX2" * f) (p "RBX1" * p "LXAL" / sqrt (1 + (p "RBX2" * kappa) * (p "RBX2" * kappa)) * p "RHX1") <> 0;
  sp_stiffness : p "PKY2" <> 0;
  sp_lat_peak : lat_friction p f gamma * Fz <> 0;
  sp_lat_slope : forall s, sign_of (lat_friction p f gamma * Fz) s -> p "PCY1" * p "LCY" * (lat_friction p f gamma * Fz) + p "epsilony" * s <> 0;
  sp_lat_curvature : lat_curvature p f gamma 1 <> 1 /\ lat_curvature p f gamma (-1) <> 1;
  sp_lat_limit : p "REY1" + p "REY2" * f <> 1;
  sp_lat_weight : hill (p "RCY1") (p "REY1" + p "REY2" * f) (p "RBY1" * p "LYKA" / sqrt (1 + (p "RBY2" * (alpha - p "RBY3")) * (p "RBY2" * (alpha - p "RBY3"))) * (p "RHY1" + p "RHY2" * f)) <> 0 }.
End Tire.
