(** What numpy computes on two-dimensional arrays, as specification for the CasADi layer. *)
From Verif Require Import Base RBase CasModel LnpModel.

(** the matrix [x] has r rows, c columns and the entries [f] *)
Definition is_mat (x : cmat) (r c : nat) (f : nat -> nat -> R) : Prop :=
  cr x = r /\ cc x = c /\ forall i j, (i < r)%nat -> (j < c)%nat -> ce x i j = f i j.
(** numpy's broadcasting of one dimension: equal sizes, or one of them is 1 *)
Definition bdim (a b n : nat) : Prop := (a = n /\ b = n) \/ (a = 1%nat /\ b = n) \/ (a = n /\ b = 1%nat).
(** the entry of [x] that lands at (i, j) of the broadcast array *)
Definition bentry (x : cmat) (i j : nat) : R := ce x (if Nat.eqb (cr x) 1 then 0 else i) (if Nat.eqb (cc x) 1 then 0 else j).
(** [t] is numpy's element-wise f(x, y) *)
Definition np_binary (f : R -> R -> R) (x y t : cmat) : Prop :=
  bdim (cr x) (cr y) (cr t) /\ bdim (cc x) (cc y) (cc t) /\ forall i j, (i < cr t)%nat -> (j < cc t)%nat -> ce t i j = f (bentry x i j) (bentry y i j).
(** the shapes on which CasADi's rule and numpy's rule agree: equal shapes, a scalar with anything, a column with a matrix of the same height *)
Definition one (x : cmat) : Prop := cr x = 1%nat /\ cc x = 1%nat.
Definition agreeing (x y : cmat) : Prop :=
  one x \/ one y \/ (cr x = cr y /\ cc x = cc y) \/ (cr x = cr y /\ (0 < cc x)%nat /\ (0 < cc y)%nat /\ (cc x = 1%nat \/ cc y = 1%nat)).
(** the cross product *)
Definition cross_entry (a b : nat -> R) (i : nat) : R :=
  match i with O => a 1%nat * b 2%nat - a 2%nat * b 1%nat | 1%nat => a 2%nat * b 0%nat - a 0%nat * b 2%nat | _ => a 0%nat * b 1%nat - a 1%nat * b 0%nat end.
(** how many rows (columns) come before block k *)
Definition before (size : cmat -> nat) (l : list cmat) (k : nat) : nat := list_sum (map size (firstn k l)).
(** [x] has the shape r x c or is a scalar *)
Definition fits (x : cmat) (r c : nat) : Prop := (cr x = r /\ cc x = c) \/ one x.
(** an element of a list given to [array] that is the number r or a 1 x 1 symbol with the value r *)
Definition scalar_item (i : item) (r : R) : Prop := i = INum r \/ exists m, i = ISym m /\ one m /\ ce m 0 0 = r.
Definition scalar_elem (e : elem) (r : R) : Prop := e = ENum r \/ exists m, e = ESym m /\ one m /\ ce m 0 0 = r.
