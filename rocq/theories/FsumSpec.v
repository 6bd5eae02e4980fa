(** Specification vocabulary for C64: which scales and values are in the
    range where double precision has full relative accuracy. *)
From Verif Require Import Base RBase FloatModel FloatSpec.
From Coq Require Import Lra.
Open Scope R_scope.

(** a scale between 2^-200 and 2^200, about 6e-61 and 1.6e60 *)
Definition fair (s : R) : Prop := pow2 (-200) <= s <= pow2 200.
(** a value that is zero or at least 2^-500, about 3e-151, in size *)
Definition sane (v : R) : Prop := v = 0 \/ pow2 (-500) <= Rabs v.
