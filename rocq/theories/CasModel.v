(** Model of lumos/numpy/casadi_numpy: the CasADi branch of the array functions.  The CasADi primitives (vertcat, diff, sum1, sum2, vertsplit,
    interpolant, ...) are modelled from their documentation; numbers are reals. *)
From Verif Require Import Base RBase UtilsModel.
From Coq Require Export Ratan Rtrigo1 R_sqrt.

(** ** determine_type.py:4-27 [is_casadi_type] *)
Inductive pyarg := Cas | Plain | Listed (l : list pyarg).   (* a CasADi object, anything else, a list or tuple *)
Fixpoint is_casadi_type (recursive : bool) (v : pyarg) : bool :=
  match v with
  | Cas => true
  | Plain => false
  | Listed l => if recursive then existsb (is_casadi_type true) l else false
  end.

(** ** Vectors (n x 1) *)
(** casadi.diff of a vector: first differences *)
Definition cas_diff (a : list R) : list R := match a with [] => [] | _ :: r => map2 Rminus r a end.
(** calculus.py:6-24 [diff]: the loop differentiates [a] again and again, not [result] *)
Definition lnp_diff (a : list R) (n : nat) : list R := fold_left (fun result _ => cas_diff a) (seq 0 n) a.
(** python indexing of rows: [a[k, :]] with a negative index counts from the end; out of range is a RuntimeError of CasADi, here IndexError *)
Definition row_at (a : list R) (k : Z) : result R :=
  let n := Z.of_nat (List.length a) in
  if (Z.leb (- n) k && Z.ltb k n)%bool then Ok (vget (Z.to_nat (if Z.ltb k 0 then n + k else k)) a) else Raise IndexError.
(** array.py:247-248 [roll] of a vector along axis 0 (also axis=None, 254): [vertcat(a[-shift, :], a[:-shift, :])]; one row is moved to the front *)
Definition lnp_roll (a : list R) (shift : Z) : result (list R) :=
  bind (row_at a (- shift)) (fun r => Ok (r :: firstn (py_bound (List.length a) (- shift)) a)).
(** array.py:249-250 [roll] along axis 0 of a matrix with more than one row and column (a list of rows): [vertcat(a.T[:, -shift], a.T[:, :-shift]).T];
    the two blocks have 1 and len - shift columns, and vertcat of different widths is a RuntimeError.  Here for 1 <= shift <= number of rows. *)
Definition lnp_roll_rows (a : list (list R)) (shift : nat) : result (list (list R)) :=
  let n := List.length a in
  if Nat.eqb (n - shift) 1 then Ok [nth (n - shift) a [] ++ nth 0 a []] else Raise RuntimeError.
(** calculus.py:27-44 [trapz] *)
Definition lnp_trapz (x : list R) (modify_endpoints : bool) : list R :=
  let integral := map2 (fun a b => (a + b) / 2) (tl x) x in
  if modify_endpoints then
    let i1 := upd 0 (vget 0 integral + vget 0 x * (1 / 2)) integral in
    let last := (List.length integral - 1)%nat in upd last (vget last i1 + vget (List.length x - 1) x * (1 / 2)) i1
  else integral.

(** ** Matrices *)
Record cmat := { cr : nat; cc : nat; ce : nat -> nat -> R }.
Definition ctrans (x : cmat) : cmat := {| cr := cc x; cc := cr x; ce := fun i j => ce x j i |}.
Definition sum1 (x : cmat) : cmat := {| cr := 1; cc := cc x; ce := fun _ j => rsum (map (fun i => ce x i j) (seq 0 (cr x))) |}.
Definition sum2 (x : cmat) : cmat := {| cr := cr x; cc := 1; ce := fun i _ => rsum (map (fun j => ce x i j) (seq 0 (cc x))) |}.
Definition cscale (k : R) (x : cmat) : cmat := {| cr := cr x; cc := cc x; ce := fun i j => ce x i j / k |}.
(** the argument [axis] *)
Inductive axis := A0 | A1 | ANone | AOther.
(** arithmetic.py:6-26 [sum]; the recursive call for axis=None is with axis=0 *)
Definition sum_axis0 (x : cmat) : cmat := ctrans (sum1 x).
Definition lnp_sum (x : cmat) (a : axis) : result cmat :=
  match a with A0 => Ok (sum_axis0 x) | A1 => Ok (sum2 x) | ANone => Ok (sum_axis0 (sum_axis0 x)) | AOther => Raise ValueError end.
(** arithmetic.py:29-48 [mean]; axis=None takes the mean along axis 0 and then along axis 1 of the resulting column *)
Definition mean_axis0 (x : cmat) : cmat := cscale (INR (cr x)) (sum_axis0 x).
Definition mean_axis1 (x : cmat) : cmat := cscale (INR (cc x)) (sum2 x).
Definition lnp_mean (x : cmat) (a : axis) : result cmat :=
  match a with A0 => Ok (mean_axis0 x) | A1 => Ok (mean_axis1 x) | ANone => Ok (mean_axis1 (mean_axis0 x)) | AOther => Raise ValueError end.
(** a column *)
Definition column (v : list R) : cmat := {| cr := List.length v; cc := 1; ce := fun i _ => vget i v |}.
(** casadi.horzcat of columns of one length; different lengths are a RuntimeError *)
Definition horzcat (vs : list (list R)) : result cmat :=
  match vs with
  | [] => Ok {| cr := 0; cc := 0; ce := fun _ _ => 0 |}
  | v :: _ => if forallb (fun w => Nat.eqb (List.length w) (List.length v)) vs then Ok {| cr := List.length v; cc := List.length vs; ce := fun i j => vget i (nth j vs []) |} else Raise RuntimeError
  end.
(** array.py:57-85 [stack] of column vectors; 107-117 [column_stack] and 120-131 [row_stack] *)
Definition lnp_stack (vs : list (list R)) (ax : Z) : result cmat :=
  if (Z.eqb ax 0 || Z.eqb ax (-2))%bool then fmap ctrans (horzcat vs) else if (Z.eqb ax 1 || Z.eqb ax (-1))%bool then horzcat vs else Raise ValueError.
Definition lnp_column_stack (vs : list (list R)) : result cmat := horzcat vs.
Definition lnp_row_stack (vs : list (list R)) : result cmat := fmap ctrans (horzcat vs).

(** ** Splitting: array.py:134-156 [split].  The elements are the slices along the axis (rows or columns). *)
(** the part between two offsets *)
Definition part {A} (l : list A) (a b : nat) : list A := firstn (b - a) (skipn a l).
Fixpoint parts {A} (l : list A) (offs : list nat) : list (list A) := match offs with a :: ((b :: _) as r) => part l a b :: parts l r | _ => [] end.
Fixpoint monotone (l : list nat) : bool := match l with a :: ((b :: _) as r) => (Nat.leb a b && monotone r)%bool | _ => true end.
(** casadi vertsplit/horzsplit with offsets: they start at 0, do not decrease and end at the size; otherwise a RuntimeError *)
Definition cas_split_offsets {A} (l : list A) (offs : list nat) : result (list (list A)) :=
  match offs with
  | O :: _ => if (monotone offs && Nat.eqb (last offs 0%nat) (List.length l))%bool then Ok (parts l offs) else Raise RuntimeError
  | _ => Raise RuntimeError
  end.
(** casadi vertsplit/horzsplit with an increment (at least 1): offsets 0, incr, 2 incr, ..., size *)
Definition cas_split_incr {A} (l : list A) (incr : nat) : result (list (list A)) :=
  if Nat.eqb incr 0 then Raise RuntimeError else cas_split_offsets l (map (fun i => i * incr)%nat (seq 0 ((List.length l + incr - 1) / incr)) ++ [List.length l]).
Definition lnp_split_int {A} (l : list A) (sections : nat) : result (list (list A)) :=
  if Nat.eqb sections 0 then Raise ZeroDivisionError else if negb (Nat.eqb (List.length l mod sections) 0) then Raise ValueError else cas_split_incr l (List.length l / sections).
Definition lnp_split_list {A} (l : list A) (idx : list nat) : result (list (list A)) := cas_split_offsets l (0%nat :: idx ++ [List.length l]).

(** ** interpolate.py:5-27 [interp] *)
(** casadi's search of the grid interval of a linear interpolant: the first i <= n-2 with x < grid[i+1] *)
Fixpoint low (i : nat) (grid : list R) (x : R) : nat :=
  match grid with
  | _ :: ((g :: (_ :: _)) as r) => if Rlt_dec x g then i else low (S i) r x
  | _ => i
  end.
Definition lut (xp fp : list R) (x : R) : R :=
  let i := low 0 xp x in vget i fp + (x - vget i xp) / (vget (S i) xp - vget i xp) * (vget (S i) fp - vget i fp).
(** casadi checks the grid: strictly increasing (and here at least two points) *)
Fixpoint increasing (l : list R) : bool := match l with a :: ((b :: _) as r) => ((if Rlt_dec a b then true else false) && increasing r)%bool | _ => true end.
Definition lnp_interp (x : R) (xp fp : list R) (left right : option R) : result R :=
  if (increasing xp && Nat.leb 2 (List.length xp) && Nat.eqb (List.length xp) (List.length fp))%bool then
    let f := lut xp fp x in
    let left := match left with Some l => l | None => vget 0 fp end in
    let right := match right with Some r => r | None => vget (List.length fp - 1) fp end in
    let f := if Rlt_dec x (vget 0 xp) then left else f in
    Ok (if Rlt_dec (vget (List.length xp - 1) xp) x then right else f)
  else Raise RuntimeError.

(** ** trig.py *)
Definition degrees (x : R) : R := x * 180 / PI.
Definition radians (x : R) : R := x * PI / 180.
Definition sind (x : R) : R := sin (radians x).
Definition cosd (x : R) : R := cos (radians x).
Definition tand (x : R) : R := tan (radians x).
Definition arcsind (x : R) : R := degrees (asin x).
Definition arccosd (x : R) : R := degrees (acos x).

(** ** rotations.py *)
Definition m3 : Type := list (list R).
(** rotations.py:6-19 *)
Definition rotation_matrix_2D (angle : R) : m3 := [[cos angle; - sin angle]; [sin angle; cos angle]].
(** rotations.py:22-44; linalg.norm is the euclidean norm *)
Definition norm2 (v : list R) : R := sqrt (rsum (map (fun a => a * a) v)).
Definition rotation_matrix_3D (angle : R) (axis : list R) (normalized : bool) : m3 :=
  let a := if normalized then axis else map (fun c => c / norm2 axis) axis in
  let s := sin angle in let c := cos angle in
  let cpm := [[0; - vget 2 a; vget 1 a]; [vget 2 a; 0; - vget 0 a]; [- vget 1 a; vget 0 a; 0]] in
  map (fun i => map (fun j => c * (if Nat.eqb i j then 1 else 0) + s * vget j (nth i cpm []) + (1 - c) * (vget i a * vget j a)) [0; 1; 2]%nat) [0; 1; 2]%nat.

(** ** spacing.py:18-33 [cosspace] (with numpy's linspace) *)
Definition linspace (a b : R) (n : nat) : list R := match n with O => [] | S O => [a] | _ => map (fun i => a + INR i * ((b - a) / (INR n - 1))) (seq 0 n) end.
Definition cosspace (start stop : R) (num : nat) : list R := map (fun t => (stop + start) / 2 + (stop - start) / 2 * cos t) (linspace PI 0 num).
(** spacing.py:48-61 [geomspace], CasADi branch: [log10(10 ** linspace(start, stop, num))]; log10 is ln / ln 10 *)
Definition geomspace (start stop : R) (num : nat) : result (list R) :=
  if Rle_dec start 0 then Raise ValueError else if Rle_dec stop 0 then Raise ValueError else Ok (map (fun t => ln (exp (t * ln 10)) / ln 10) (linspace start stop num)).
(** spacing.py:36-45 [logspace], CasADi branch *)
Definition logspace (start stop : R) (num : nat) : list R := map (fun t => exp (t * ln 10)) (linspace start stop num).

(** ** logicals.py:6-17 [clip] *)
Definition clip (x mn mx : R) : R := Rmin (Rmax x mn) mx.
