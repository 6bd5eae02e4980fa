(** Model, in IEEE-754 double precision, of the arithmetic that the other files model with exact
    reals: the mesh part of lumos/optimal_control/scaled_mesh_ocp.py (472-583) and the scaling of
    variables around the solver in lumos/optimal_control/nlp.py (513-649).

    A double is a real number of the format of the doubles; an operation of numpy on doubles is the
    exact operation followed by [fl], rounding to nearest, ties to even, with gradual underflow.
    Simplification: the format has no largest number, so overflow, infinities made by an overflow
    and NaN are not modelled (infinite bounds are, below). *)
From Verif Require Import Base RBase MeshModel.
From Flocq Require Import Core.

Definition dexp : BinInt.Z -> BinInt.Z := FLT_exp (-1074)%Z 53%Z.

(** rounding to nearest double, ties to even *)
Definition fl (x : R) : R := round radix2 dexp ZnearestE x.

Definition fadd (x y : R) : R := fl (x + y).
Definition fsub (x y : R) : R := fl (x - y).
Definition fmul (x y : R) : R := fl (x * y).
Definition fdiv (x y : R) : R := fl (x / y).

(** [np.linspace(0, 1.0, n + 1)] as numpy computes it: [y = arange(n + 1) * (1.0 / n) + 0], then
    the last element is overwritten with 1.0; for n = 0 no division is made and nothing overwritten *)
Definition fl_linspace01 (n : nat) : list R :=
  match n with
  | O => [fadd (fmul 0 1) 0]
  | _ => map (fun i => fadd (fmul (INR i) (fdiv 1 (INR n))) 0) (seq 0 n) ++ [1]
  end.

(** [np.diff] *)
Fixpoint fl_diff (l : list R) : list R :=
  match l with
  | a :: ((b :: _) as r) => fsub b a :: fl_diff r
  | _ => []
  end.

(** scaled_mesh_ocp.py:487-505 the checks, in order; the literal 1e-6 is the nearest double *)
Definition fl_check (n : nat) (p : list R) : result unit :=
  if negb (Nat.eqb (List.length p) (n + 1)) then Raise ValueError
  else if (rleb (fl (1 / 1000000)) (Rabs (nth 0 p 0))
           || rleb (fl (1 / 1000000)) (Rabs (fsub (last p 0) 1)))%bool then Raise ValueError
  else if negb (forallb (fun d => rltb 0 d) (fl_diff p)) then Raise ValueError
  else Ok tt.

(** scaled_mesh_ocp.py:512-526 one interval; [pts] are the interp_points of an LGR transcription
    (as doubles), and empty for the other transcriptions *)
Definition fl_interval_mesh (pts : list R) (p : list R) (i : nat) : list R :=
  match pts with
  | [] => [nth i p 0; nth (i + 1) p 0]
  | _ => map (fun q => fadd (nth i p 0) (fmul q (fsub (nth (i + 1) p 0) (nth i p 0)))) pts
  end.

(** scaled_mesh_ocp.py:472-528 [set_normalized_mesh]: the value stored, or the exception *)
Definition fl_make_mesh (n : nat) (pts : list R) (arg : option (list R)) : result (list (list R)) :=
  bind (match arg with
        | Some p => bind (fl_check n p) (fun _ => Ok p)
        | None => Ok (fl_linspace01 n)
        end) (fun p => Ok (map (fl_interval_mesh pts p) (seq 0 n))).

(** scaled_mesh_ocp.py:541-544 [_normalized_interval_length] *)
Definition fl_interval_lengths (mesh : list (list R)) : list R :=
  map (fun m => fsub (last m 0) (hd 0 m)) mesh.

(** scaled_mesh_ocp.py:574-583 [get_mesh_from_scale]; [flat_mesh] (530-539) only moves numbers *)
Definition fl_mesh_from_scale (mesh : list (list R)) (scale : R) : result (list R) :=
  fmap (map (fun v => fmul v scale)) (flat_mesh mesh).

(** a bound of a variable: np.inf and -np.inf are allowed *)
Inductive fbound := FInf | FNegInf | FFin (x : R).

(** a bound divided by a positive finite scale: an infinity stays *)
Definition fb_div (b : fbound) (s : R) : fbound :=
  match b with FInf => FInf | FNegInf => FNegInf | FFin x => FFin (fdiv x s) end.

(** nlp.py:513-546 [_construct_ipopt_problem]: the bounds handed to the solver *)
Definition fl_scaled_bounds (lb ub : list fbound) (scales : list R) : list fbound * list fbound :=
  (map2 fb_div lb scales, map2 fb_div ub scales).

(** nlp.py:581-649 [solve], the numbers only: the scaled initial guess goes to the solver with the
    scaled bounds, and what the solver returns is multiplied by the scales *)
Definition fl_solve (solver : list fbound -> list fbound -> list R -> list R)
    (lb ub : list fbound) (scales guess : list R) : list R :=
  let '(slb, sub) := fl_scaled_bounds lb ub scales in
  map2 fmul (solver slb sub (map2 fdiv guess scales)) scales.
