(** Model of lumos/optimal_control/collocation.py and transcription.py.
    Numbers are exact reals.  numpy's Polynomial/Legendre and scipy's [lagrange] are modelled by
    their published algorithms; the numerical root finder is an oracle argument [roots]. *)
From Verif Require Import Base RBase.

(** ** numpy.polynomial.Polynomial: ascending coefficients *)
Fixpoint peval (p : list R) (t : R) : R := match p with [] => 0 | c :: q => c + t * peval q t end.
Fixpoint padd (p q : list R) : list R :=
  match p, q with
  | [], _ => q
  | _, [] => p
  | a :: p', b :: q' => (a + b) :: padd p' q'
  end.
Definition pscale (k : R) (p : list R) : list R := map (Rmult k) p.
(** product with the linear polynomial c0 + c1 t *)
Definition pmul_lin (p : list R) (c0 c1 : R) : list R := padd (pscale c0 p) (0 :: pscale c1 p).
(** [Polynomial.deriv()]: coefficient k of the derivative is (k+1) * c_{k+1} *)
Fixpoint pdiff_from (k : nat) (p : list R) : list R :=
  match p with [] => [] | c :: q => INR k * c :: pdiff_from (S k) q end.
Definition pdiff (p : list R) : list R := match p with [] => [] | _ :: q => pdiff_from 1 q end.
(** [Polynomial.integ()]: 0 followed by c_k / (k+1) *)
Fixpoint pint_from (k : nat) (p : list R) : list R :=
  match p with [] => [] | c :: q => c / INR k :: pint_from (S k) q end.
Definition pinteg (p : list R) : list R := 0 :: pint_from 1 p.

(** ** scipy.interpolate.lagrange(x, w) (scipy/interpolate/_interpolate.py):
    p = sum_j w_j prod_{k <> j} (t - x_k)/(x_j - x_k); coefficients here already in ascending order
    (collocation.py:76 reverses scipy's descending ones). Trimming of leading zeros is omitted. *)
Definition lag_term (x : list R) (j : nat) (wj : R) : list R :=
  fold_left (fun pt k => if Nat.eqb k j then pt
                         else let fac := vget j x - vget k x in pmul_lin pt (- vget k x / fac) (1 / fac))
            (seq 0 (List.length x)) [wj].
Definition lagrange (x w : list R) : list R :=
  fold_left (fun p j => padd p (lag_term x j (vget j w))) (seq 0 (List.length x)) [0].

(** collocation.py:68-77 [make_lagrange_polynomial] *)
Definition make_lagrange_polynomial (support : list R) (index : nat) : list R :=
  lagrange support (upd index 1 (zeros (List.length support))).
(** collocation.py:80-83 [make_lagrange_basis] *)
Definition make_lagrange_basis (support : list R) : list (list R) :=
  map (make_lagrange_polynomial support) (seq 0 (List.length support)).

Definition mat : Type := list (list R).
Definition mget (i j : nat) (m : mat) : R := vget j (nth i m []).

(** collocation.py:86-97: rows = evaluation points, columns = basis polynomials (after [.T]) *)
Definition build_lagrange_differential_matrix (support ev : list R) : mat :=
  let ps := map pdiff (make_lagrange_basis support) in
  map (fun e => map (fun p => peval p e) ps) ev.
(** collocation.py:100-114 *)
Definition build_lagrange_integration_matrix (support ev : list R) : mat :=
  let ps := map pinteg (make_lagrange_basis support) in
  map (fun e => map (fun p => peval p e - peval p (vget 0 support)) ps) ev.

(** ** numpy.polynomial.legendre.Legendre: series in the Legendre polynomials, which obey
    (n+1) P_{n+1}(t) = (2n+1) t P_n(t) - n P_{n-1}(t) *)
Fixpoint legPP (n : nat) (t : R) : R * R :=   (* (P_n, P_{n+1}) *)
  match n with
  | O => (1, t)
  | S m => let (a, b) := legPP m t in (b, ((2 * INR m + 3) * t * b - (INR m + 1) * a) / (INR m + 2))
  end.
Definition legP (n : nat) (t : R) : R := fst (legPP n t).
Definition legval (coef : list R) (t : R) : R :=
  rsum (map2 (fun c k => c * legP k t) coef (seq 0 (List.length coef))).

(** collocation.py:10-22 (LGL is not used by any transcription and is not modelled) *)
Inductive colscheme := SchemeLGR | SchemeLG.

(** collocation.py:26-65 [get_collocation_points]; [roots coef] is numpy's
    [Legendre(coef).roots()] *)
Definition get_collocation_points (roots : list R -> list R) (num_points : nat) (s : colscheme) : result (list R) :=
  if Nat.ltb num_points 1 then Raise AssertionError
  else match s with
       | SchemeLGR => Ok (map Ropp (rev (roots (repeat 0 (num_points - 1) ++ [1; 1]))))
       | SchemeLG => Ok (roots (repeat 0 num_points ++ [1]))
       end.

(** ** transcription.py *)
(** [A @ X] for a matrix with [d] columns *)
Definition mmul (A X : mat) (d : nat) : mat :=
  map (fun row => map (fun c => vdot row (map (vget c) X)) (seq 0 d)) A.
Definition msub (A B : mat) : mat := map2 vsub A B.
Definition mscale (A : mat) (h : R) : mat := map (map (fun v => v * h)) A.
(** [scipy.sparse.diags(vals, offsets, shape).toarray()] for non-negative offsets *)
Definition diags (vo : list (R * nat)) (nr nc : nat) : mat :=
  map (fun i => map (fun j => rsum (map (fun v => if Nat.eqb j (i + snd v) then fst v else 0) vo)) (seq 0 nc)) (seq 0 nr).

(** transcription.py:38-55 *)
Record transcription := {
  t_stages : nat;       (* num_stages_per_interval *)
  t_ncon : nat;         (* num_constraints_per_interval *)
  t_points : list R;    (* interp_points (collocation only) *)
  t_A : mat;
  t_B : mat;
}.
Definition continuity_con (t : transcription) (x xdot : mat) (d : nat) (h : R) : mat :=
  msub (mmul (t_A t) x d) (mscale (mmul (t_B t) xdot d) h).

(** transcription.py:65-75 *)
Definition forward_euler : transcription :=
  {| t_stages := 2; t_ncon := 1; t_points := []; t_A := diags [(-1, 0%nat); (1, 1%nat)] 1 2; t_B := diags [(1, 0%nat)] 1 2 |}.
(** transcription.py:78-88 *)
Definition trapezoidal : transcription :=
  {| t_stages := 2; t_ncon := 1; t_points := []; t_A := diags [(-1, 0%nat); (1, 1%nat)] 1 2; t_B := diags [(1/2, 0%nat); (1/2, 1%nat)] 1 2 |}.

(** transcription.py:138-155: points mapped from [-1,1] to [0,1] *)
Definition lgr_collocation_points (roots : list R -> list R) (num_stages : nat) : result (list R) :=
  fmap (map (fun p => (p + 1) / 2)) (get_collocation_points roots (num_stages - 1) SchemeLGR).
(** transcription.py:91-135, 138-155 [LGR] *)
Definition lgr (roots : list R -> list R) (num_stages : nat) : result transcription :=
  bind (lgr_collocation_points roots num_stages) (fun col =>
  let interp := 0 :: col in
  Ok {| t_stages := num_stages; t_ncon := List.length col; t_points := interp;
        t_A := build_lagrange_differential_matrix interp col;
        t_B := diags [(1, 1%nat)] (List.length col) num_stages |}).
(** transcription.py:158-180 [LGRIntegral]; note that the derivative is fitted on all interpolation points *)
Definition lgr_integral (roots : list R -> list R) (num_stages : nat) : result transcription :=
  bind (lgr roots num_stages) (fun t =>
  Ok {| t_stages := num_stages; t_ncon := t_ncon t; t_points := t_points t;
        t_A := map (fun i => -1 :: map (fun j => if Nat.eqb i j then 1 else 0) (seq 0 (num_stages - 1))) (seq 0 (num_stages - 1));
        t_B := build_lagrange_integration_matrix (t_points t) (tl (t_points t)) |}).

(** transcription.py:183-219 [make_transcription]; [num_stages] is the only keyword any class
    takes ([None] = not given; classes without it raise TypeError) *)
Definition make_transcription (roots : list R -> list R) (name : string) (num_stages : option nat) : result transcription :=
  if String.eqb name "ForwardEuler" then match num_stages with None => Ok forward_euler | Some _ => Raise TypeError end
  else if String.eqb name "Trapezoidal" then match num_stages with None => Ok trapezoidal | Some _ => Raise TypeError end
  else if String.eqb name "LGR" then lgr roots (match num_stages with None => 3 | Some n => n end)
  else if String.eqb name "LGRIntegral" then lgr_integral roots (match num_stages with None => 3 | Some n => n end)
  else Raise RuntimeError.
