(** C40 (continued): the sense of rotation of [rotation_matrix_3D]. *)
From Coq Require Import Nsatz.
From Verif Require Import Base RBase CasModel CasSpec CasProps2.
From Coq Require Import List.
Import ListNotations.

(** the cross product of two vectors of R^3 *)
Definition cross (a u : list R) : list R :=
  [vget 1 a * vget 2 u - vget 2 a * vget 1 u; vget 2 a * vget 0 u - vget 0 a * vget 2 u; vget 0 a * vget 1 u - vget 1 a * vget 0 u].
(** Rodrigues' formula: every vector v is turned by the angle around the unit axis a, counterclockwise seen against the axis *)
Theorem C40_rotation_3D_rodrigues : forall t a v, unit3 a -> List.length v = 3%nat ->
  mapply 3 (rotation_matrix_3D t a true) v =
  vadd (vadd (vscale (cos t) v) (vscale (sin t) (cross a v))) (vscale ((1 - cos t) * (vget 0 a * vget 0 v + vget 1 a * vget 1 v + vget 2 a * vget 2 v)) a).
Proof.
  intros t a v [Hl Hu] Hv. destruct a as [|x [|y [|z [|? ?]]]]; try discriminate Hl. destruct v as [|u [|v [|w [|? ?]]]]; try discriminate Hv.
  unfold rotation_matrix_3D, mapply, cross, vadd, vscale, vget. cbn [seq map rsum nth Nat.eqb map2]. f_equal; [ring|f_equal; [ring|f_equal; ring]].
Qed.
Print Assumptions C40_rotation_3D_rodrigues.
(** around the vertical axis it is the 2D rotation *)
Theorem C40_rotation_3D_vertical : forall t x y z, mapply 3 (rotation_matrix_3D t [0; 0; 1] true) [x; y; z] = mapply 2 (rotation_matrix_2D t) [x; y] ++ [z].
Proof.
  intros. unfold rotation_matrix_3D, rotation_matrix_2D, mapply, vget. cbn [seq map rsum nth Nat.eqb app]. f_equal; [ring|f_equal; [ring|f_equal; ring]].
Qed.
Print Assumptions C40_rotation_3D_vertical.
Example C40_rodrigues_nonvacuous : unit3 [3 / 5; 0; 4 / 5] /\ cross [0; 0; 1] [1; 0; 0] = [0; 1; 0].
Proof. split; [split; [reflexivity|unfold vget; cbn [nth]; lra]|]. unfold cross, vget. cbn [nth]. f_equal; [ring|f_equal; [ring|f_equal; ring]]. Qed.
