(** Specification of double precision, without any library of floating-point numbers. *)
From Verif Require Import Base RBase.

(** 2 to the power e, e an integer *)
Definition pow2 (e : BinInt.Z) : R := powerRZ 2 e.

(** a finite double (without the upper limit of the exponent): m * 2^e with |m| < 2^53 and
    e at least -1074 *)
Definition double (x : R) : Prop :=
  exists m e : BinInt.Z, x = IZR m * pow2 e /\ (Z.abs m < 2 ^ 53)%Z /\ (-1074 <= e)%Z.

(** y is a double nearest to x *)
Definition nearest (x y : R) : Prop :=
  double y /\ forall z, double z -> Rabs (y - x) <= Rabs (z - x).

(** the unit roundoff 2^-53 *)
Definition uro : R := / 9007199254740992.

(** the double that the literal 1e-6 denotes *)
Definition micro : R := 4722366482869645 * pow2 (-72).

(** strictly increasing *)
Definition increasing (l : list R) : Prop :=
  forall i j, (i < j < List.length l)%nat -> nth i l 0 < nth j l 0.

(** increasing, not strictly *)
Definition nondecreasing (l : list R) : Prop :=
  forall i j, (i <= j < List.length l)%nat -> nth i l 0 <= nth j l 0.

Definition doubles (l : list R) : Prop := forall x, In x l -> double x.
