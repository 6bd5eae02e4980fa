(** Specification for C65: the elements of a parameter, for numpy values and CasADi matrices. *)
From Verif Require Import Base TreeModel CpModel.
Open Scope nat_scope.
Section S.
Context {A : Type}.
(** the element in row i and column j; a scalar is a 1 by 1 matrix and a vector a column. A numpy matrix
    counts its elements row by row, a CasADi matrix column by column. *)
Definition at2 (x : pval A) (i j : nat) : option A :=
  match x with
  | PNum (LScalar a) => if Nat.eqb i 0 && Nat.eqb j 0 then Some a else None
  | PNum (LArray [n] v) => if Nat.ltb i n && Nat.eqb j 0 then nth_error v i else None
  | PNum (LArray [p; q] v) => if Nat.ltb i p && Nat.ltb j q then nth_error v (i * q + j) else None
  | PNum _ => None
  | PCas r c e => if Nat.ltb i r && Nat.ltb j c then nth_error e (j * r + i) else None
  end.
(** rows and columns *)
Definition dims (x : pval A) : option (nat * nat) :=
  match x with
  | PNum (LScalar _) => Some (1, 1)
  | PNum (LArray [n] _) => Some (n, 1)
  | PNum (LArray [p; q] _) => Some (p, q)
  | PNum _ => None
  | PCas r c _ => Some (r, c)
  end.
(** a value numpy and CasADi can both hold: at most two dimensions, not empty, the number of elements as
    the shape says *)
Definition well_formed (x : pval A) : Prop :=
  exists p q, dims x = Some (p, q) /\ 0 < p * q /\ psize x = p * q.
Definition numpy (x : pval A) : Prop := exists l, x = PNum l.
Definition casadi (x : pval A) : Prop := exists r c e, x = PCas r c e.
(** a vector or a scalar *)
Definition no_matrix (x : pval A) : Prop := forall p q, dims x = Some (p, q) -> p = 1 \/ q = 1.
(** the same matrix *)
Definition same (x y : pval A) : Prop := dims x = dims y /\ forall i j, at2 x i j = at2 y i j.
(** y is the p by q matrix x read in the wrong order: its element (i, j) is element number j * p + i of x,
    counted row by row *)
Definition scrambled (x y : pval A) : Prop :=
  exists p q, dims x = Some (p, q) /\ dims y = Some (p, q) /\
  forall i j, i < p -> j < q -> at2 y i j = at2 x ((j * p + i) / q) ((j * p + i) mod q).
End S.
