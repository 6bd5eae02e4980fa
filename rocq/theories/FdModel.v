(** Model of lumos/numpy/casadi_numpy/finite_difference_operators.py. *)
From Verif Require Import Base RBase.

(** the array [delta] (three indices) and its item assignment *)
Definition cube : Type := nat -> nat -> nat -> R.
Definition cset (d : cube) (m n v : nat) (a : R) : cube :=
  fun m' n' v' => if (Nat.eqb m' m && Nat.eqb n' n && Nat.eqb v' v)%bool then a else d m' n' v'.
(** python's delta[m - 1, ...]: index -1 is the last one, here [M] *)
Definition pred_idx (M m : nat) : nat := match m with O => M | S k => k end.

Section Fd.
Variables (x : list R) (x0 : R) (M : nat).
(** finite_difference_operators.py:78-81, the inner loop over m *)
Definition fd_inner (n v : nat) (c3 : R) (d : cube) : cube :=
  fold_left (fun d m => cset d m n v (((vget n x - x0) * d m (n - 1)%nat v - INR m * d (pred_idx M m) (n - 1)%nat v) / c3)) (seq 0 (Nat.min n M + 1)) d.
(** finite_difference_operators.py:73-81, the loop over v; the state is (delta, c2) *)
Definition fd_v (n : nat) (st : cube * R) : cube * R :=
  fold_left (fun st v => let c3 := vget n x - vget v x in let c2 := snd st * c3 in (fd_inner n v c3 (fst st), c2)) (seq 0 n) st.
(** finite_difference_operators.py:82-90, the loop for the new grid point *)
Definition fd_diag (n : nat) (c1 c2 : R) (d : cube) : cube :=
  fold_left (fun d m => cset d m n n (c1 / c2 * (INR m * d (pred_idx M m) (n - 1)%nat (n - 1)%nat - (vget (n - 1) x - x0) * d m (n - 1)%nat (n - 1)%nat))) (seq 0 (Nat.min n M + 1)) d.
(** finite_difference_operators.py:69-91; the state is (delta, c1) *)
Definition fd_step (st : cube * R) (n : nat) : cube * R :=
  let '(d, c2) := fd_v n (fst st, 1) in (fd_diag n (snd st) c2 d, c2).
Definition fd_init : cube := cset (fun _ _ _ => 0) 0 0 0 1.
Definition fd_table : cube := fst (fold_left fd_step (seq 1 (List.length x - 1)) (fd_init, 1)).
End Fd.

(** what the call returns: an array, or an exception object (lines 54-60 say [return ValueError(...)], not raise) *)
Inductive fdval := FdArray (w : list R) | FdExceptionObject.
(** finite_difference_operators.py:5-98 [finite_difference_coefficients] *)
Definition finite_difference_coefficients (x : list R) (x0 : R) (derivative_degree : Z) : result fdval :=
  if Z.ltb derivative_degree 1 then Ok FdExceptionObject
  else if Z.ltb (Z.of_nat (List.length x) - derivative_degree) 1 then Ok FdExceptionObject
  else let M := Z.to_nat derivative_degree in Ok (FdArray (map (fd_table x x0 M M (List.length x - 1)%nat) (seq 0 (List.length x)))).
