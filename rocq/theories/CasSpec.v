(** What numpy computes, as specification for the CasADi layer. *)
From Verif Require Import Base RBase CasModel.

(** some CasADi object can be reached through nested lists and tuples *)
Inductive reaches_casadi : pyarg -> Prop :=
| rc_here : reaches_casadi Cas
| rc_in : forall v l, In v l -> reaches_casadi v -> reaches_casadi (Listed l).
(** numpy.diff of order n: first differences, repeated *)
Fixpoint np_diff (a : list R) (n : nat) : list R := match n with O => a | S k => map (fun i => vget (S i) (np_diff a k) - vget i (np_diff a k)) (seq 0 (List.length (np_diff a k) - 1)) end.
(** numpy.roll of a vector: element i comes from position i - shift, cyclically *)
Definition np_roll (a : list R) (shift : Z) : list R := map (fun i => vget (Z.to_nat ((Z.of_nat i - shift) mod Z.of_nat (List.length a))) a) (seq 0 (List.length a)).
(** sum of all entries *)
Definition total (x : cmat) : R := rsum (map (fun i => rsum (map (fun j => ce x i j) (seq 0 (cc x)))) (seq 0 (cr x))).
(** numpy.split at indices: [l[0:i1], l[i1:i2], ..., l[ik:]] (python slices) *)
Definition slice {A} (l : list A) (a b : nat) : list A := firstn (b - a) (skipn a l).
Fixpoint np_split_from {A} (l : list A) (a : nat) (idx : list nat) : list (list A) := match idx with [] => [slice l a (List.length l)] | b :: r => slice l a b :: np_split_from l b r end.
Definition np_split {A} (l : list A) (idx : list nat) : list (list A) := np_split_from l 0 idx.
(** numpy.interp on an increasing grid *)
Definition interp_spec (xp fp : list R) (left right x y : R) : Prop :=
  (x < vget 0 xp -> y = left) /\ (vget (List.length xp - 1) xp < x -> y = right) /\
  forall i, (S i < List.length xp)%nat -> vget i xp <= x <= vget (S i) xp -> y = vget i fp + (x - vget i xp) * ((vget (S i) fp - vget i fp) / (vget (S i) xp - vget i xp)).
(** matrices as lists of rows *)
Definition mprod (n : nat) (A B : list (list R)) : list (list R) := map (fun i => map (fun j => rsum (map (fun k => vget k (nth i A []) * vget j (nth k B [])) (seq 0 n))) (seq 0 n)) (seq 0 n).
Definition mtr (n : nat) (A : list (list R)) : list (list R) := map (fun i => map (fun j => vget i (nth j A [])) (seq 0 n)) (seq 0 n).
Definition ident (n : nat) : list (list R) := map (fun i => map (fun j => if Nat.eqb i j then 1 else 0) (seq 0 n)) (seq 0 n).
Definition mapply (n : nat) (A : list (list R)) (v : list R) : list R := map (fun i => rsum (map (fun k => vget k (nth i A []) * vget k v) (seq 0 n))) (seq 0 n).
Definition det2 (A : list (list R)) : R := vget 0 (nth 0 A []) * vget 1 (nth 1 A []) - vget 1 (nth 0 A []) * vget 0 (nth 1 A []).
Definition det3 (A : list (list R)) : R :=
  let a i j := vget j (nth i A []) in
  a 0%nat 0%nat * (a 1%nat 1%nat * a 2%nat 2%nat - a 1%nat 2%nat * a 2%nat 1%nat) - a 0%nat 1%nat * (a 1%nat 0%nat * a 2%nat 2%nat - a 1%nat 2%nat * a 2%nat 0%nat) + a 0%nat 2%nat * (a 1%nat 0%nat * a 2%nat 1%nat - a 1%nat 1%nat * a 2%nat 0%nat).
