(** Model of lumos/numpy/casadi_numpy: element-wise functions, products, norms, construction, concatenation and reshaping of CasADi matrices.
    The CasADi primitives (binary operations with their broadcasting, vertcat, horzcat, mtimes, dot, cross, if_else, diag, reshape, ...) are modelled
    from their documentation; every CasADi object is a matrix of reals.  Not modelled: linalg.solve (a call of casadi.solve), max and min
    (numpy.max of a CasADi object), DM objects inside lists given to [array]. *)
From Verif Require Import Base RBase CasModel VehModel.
From Coq Require Export Rpower.

(** what the functions are given: a numpy vector, a numpy matrix or a CasADi matrix *)
Inductive arr := Vec (v : list R) | Mat (m : cmat) | CasM (m : cmat).
(** CasADi's conversion of an argument: a numpy vector of length n is an n x 1 matrix *)
Definition dm (a : arr) : cmat := match a with Vec v => column v | Mat m => m | CasM m => m end.
Definition is_cas (a : arr) : bool := match a with CasM _ => true | _ => false end.

(** ** Element-wise operations *)
Definition cscalar (r : R) : cmat := {| cr := 1; cc := 1; ce := fun _ _ => r |}.
Definition is_scalar (x : cmat) : bool := (Nat.eqb (cr x) 1 && Nat.eqb (cc x) 1)%bool.
Definition cmap1 (f : R -> R) (x : cmat) : cmat := {| cr := cr x; cc := cc x; ce := fun i j => f (ce x i j) |}.
(** casadi.repmat(x, 1, k) *)
Definition repmat_h (x : cmat) (k : nat) : cmat := {| cr := cr x; cc := cc x * k; ce := fun i j => ce x i (j mod cc x) |}.
Definition czip (f : R -> R -> R) (x y : cmat) : cmat := {| cr := cr x; cc := cc x; ce := fun i j => f (ce x i j) (ce y i j) |}.
(** a binary operation of CasADi: scalars broadcast, and so does a matrix whose width divides the width of the other *)
Definition cbin (f : R -> R -> R) (x y : cmat) : result cmat :=
  if is_scalar x then Ok (cmap1 (fun b => f (ce x 0 0) b) y)
  else if is_scalar y then Ok (cmap1 (fun a => f a (ce y 0 0)) x)
  else if (Nat.eqb (cr x) (cr y) && Nat.eqb (cc x) (cc y))%bool then Ok (czip f x y)
  else if (Nat.eqb (cr x) (cr y) && Nat.ltb 0 (cc x) && Nat.ltb 0 (cc y))%bool then
    if Nat.eqb (cc x mod cc y) 0 then Ok (czip f x (repmat_h y (cc x / cc y)))
    else if Nat.eqb (cc y mod cc x) 0 then Ok (czip f (repmat_h x (cc y / cc x)) y)
    else Raise RuntimeError
  else Raise RuntimeError.
(** logicals.py:20-22 [minimum], 25-27 [maximum] *)
Definition lnp_minimum (x y : arr) : result cmat := cbin Rmin (dm x) (dm y).
Definition lnp_maximum (x y : arr) : result cmat := cbin Rmax (dm x) (dm y).
(** truth values: everything but 0 is true; a comparison gives 1 or 0 *)
Definition truth (r : R) : bool := if Req_EM_T r 0 then false else true.
Definition of_bool (b : bool) : R := if b then 1 else 0.
(** logicals.py:30-40 [logical_and], 43-53 [logical_or], 56-66 [logical_not], CasADi branches *)
Definition lnp_logical_and (x y : arr) : result cmat := cbin (fun a b => of_bool (truth a && truth b)) (dm x) (dm y).
Definition lnp_logical_or (x y : arr) : result cmat := cbin (fun a b => of_bool (truth a || truth b)) (dm x) (dm y).
Definition lnp_logical_not (x : cmat) : cmat := cmap1 (fun a => of_bool (negb (truth a))) x.
(** logicals.py:69-79 [all], 82-92 [any], CasADi branches: logic_all and logic_any test the entries for being 1 *)
Definition is_one (r : R) : bool := if Req_EM_T r 1 then true else false.
Definition entries (x : cmat) : list R := flat_map (fun j => map (fun i => ce x i j) (seq 0 (cr x))) (seq 0 (cc x)).
Definition lnp_all (x : cmat) : cmat := cscalar (of_bool (forallb is_one (entries x))).
Definition lnp_any (x : cmat) : cmat := cscalar (of_bool (existsb is_one (entries x))).
(** arithmetic.py:51-56 [abs] *)
Definition lnp_abs (x : cmat) : cmat := cmap1 Rabs x.
(** conditionals.py:6-12 [where]; casadi.if_else(c, t, f) is if_else_zero(c, t) + if_else_zero(!c, f) *)
Definition if_else_zero (c a : R) : R := if truth c then a else 0.
Definition lnp_where (c t f : arr) : result cmat :=
  bind (cbin if_else_zero (dm c) (dm t)) (fun a => bind (cbin if_else_zero (lnp_logical_not (dm c)) (dm f)) (fun b => cbin Rplus a b)).
(** python's + with at least one CasADi operand *)
Definition lnp_add (x y : arr) : result cmat := cbin Rplus (dm x) (dm y).

(** ** Products *)
(** casadi.dot: the sum of the products of corresponding entries *)
Definition cas_dot (x y : cmat) : result cmat :=
  if (Nat.eqb (cr x) (cr y) && Nat.eqb (cc x) (cc y))%bool then Ok (cscalar (rsum (map2 Rmult (entries x) (entries y)))) else Raise RuntimeError.
(** linalg_top_level.py:7-17 [dot]; linalg.py:7-17 [inner] *)
Definition lnp_dot (x y : arr) : result cmat := cas_dot (dm x) (dm y).
Definition lnp_inner (x y : arr) : result cmat := cas_dot (dm x) (dm y).
(** casadi.mtimes, python's @ *)
Definition mtimes (x y : cmat) : result cmat :=
  if (is_scalar x || is_scalar y)%bool then cbin Rmult x y
  else if Nat.eqb (cc x) (cr y) then Ok {| cr := cr x; cc := cc y; ce := fun i j => rsum (map (fun k => ce x i k * ce y k j) (seq 0 (cc x))) |}
  else Raise RuntimeError.
(** linalg.py:20-32 [outer] *)
Definition lnp_outer (x y : arr) : result cmat := mtimes (dm x) (ctrans (dm y)).
(** casadi.cross without a dimension: along the rows if there are three rows, else along the columns *)
Definition cross_rows (a b : cmat) : cmat :=
  {| cr := 3; cc := cc a; ce := fun i j => match i with
     | O => ce a 1 j * ce b 2 j - ce a 2 j * ce b 1 j
     | 1%nat => ce a 2 j * ce b 0 j - ce a 0 j * ce b 2 j
     | _ => ce a 0 j * ce b 1 j - ce a 1 j * ce b 0 j end |}.
Definition cas_cross (a b : cmat) : result cmat :=
  if negb (Nat.eqb (cr a) (cr b) && Nat.eqb (cc a) (cc b)) then Raise RuntimeError
  else if Nat.eqb (cr a) 3 then Ok (cross_rows a b)
  else if Nat.eqb (cc a) 3 then Ok (ctrans (cross_rows (ctrans a) (ctrans b)))
  else Raise RuntimeError.
(** linalg_top_level.py:20-65 [cross] *)
Definition along (ax : BinInt.Z) (x : cmat) : result cmat :=
  if (Z.eqb ax (-1) || Z.eqb ax 1)%bool then Ok (ctrans x) else if Z.eqb ax 0 then Ok x else Raise ValueError.
Definition lnp_cross (a b : arr) (axisa axisb axisc : BinInt.Z) (axis : option BinInt.Z) : result cmat :=
  let go axa axb axc :=
    bind (along axa (dm a)) (fun a' => bind (along axb (dm b)) (fun b' => bind (cas_cross a' b') (fun c => along axc c))) in
  match axis with
  | Some ax => if (Z.eqb ax (-1) || Z.eqb ax 0 || Z.eqb ax 1)%bool then go ax ax ax else Raise ValueError
  | None => go axisa axisb axisc
  end.

(** ** linalg.py:52-96 [norm]; [np] is not imported in this file *)
Inductive ordv := OrdNum (r : R) | OrdFro | OrdInf.
Definition axis_of (z : option BinInt.Z) : axis := match z with None => ANone | Some z => if Z.eqb z 0 then CasModel.A0 else if Z.eqb z 1 then CasModel.A1 else AOther end.
Definition lnp_norm (x : cmat) (ord : option ordv) (axis : option BinInt.Z) : result cmat :=
  let go (axis : option BinInt.Z) :=
    let ord := match ord with Some o => o | None => match axis with Some _ => OrdNum 2 | None => OrdFro end end in
    match ord with
    | OrdNum r =>
        if Req_EM_T r 1 then lnp_sum (lnp_abs x) (axis_of axis)
        else if Req_EM_T r 2 then fmap (cmap1 sqrt) (lnp_sum (cmap1 (fun a => a * a) x) (axis_of axis))
        else Raise NameError
    | OrdFro => Ok (cscalar (sqrt (rsum (map (fun a => a * a) (entries x)))))
    | OrdInf => Raise NameError
    end in
  match axis with
  | Some ax => if (Z.eqb ax 0 || Z.eqb ax 1 || Z.eqb ax (-1))%bool then go axis else Raise ValueError
  | None => go (if Nat.eqb (cr x) 1 then Some 1%Z else if Nat.eqb (cc x) 1 then Some 0%Z else None)
  end.

(** ** Concatenation.  CasADi drops 0 x 0 blocks. *)
Definition cempty : cmat := {| cr := 0; cc := 0; ce := fun _ _ => 0 |}.
Definition is_empty (x : cmat) : bool := (Nat.eqb (cr x) 0 && Nat.eqb (cc x) 0)%bool.
Definition hcat2 (x y : cmat) : result cmat :=
  if is_empty x then Ok y else if is_empty y then Ok x
  else if Nat.eqb (cr x) (cr y) then Ok {| cr := cr x; cc := cc x + cc y; ce := fun i j => if Nat.ltb j (cc x) then ce x i j else ce y i (j - cc x) |} else Raise RuntimeError.
Definition vcat2 (x y : cmat) : result cmat :=
  if is_empty x then Ok y else if is_empty y then Ok x
  else if Nat.eqb (cc x) (cc y) then Ok {| cr := cr x + cr y; cc := cc x; ce := fun i j => if Nat.ltb i (cr x) then ce x i j else ce y (i - cr x) j |} else Raise RuntimeError.
Definition cas_horzcat (l : list cmat) : result cmat := fold_left (fun r y => bind r (fun x => hcat2 x y)) l (Ok cempty).
Definition cas_vertcat (l : list cmat) : result cmat := fold_left (fun r y => bind r (fun x => vcat2 x y)) l (Ok cempty).
(** array.py:36-54 [concatenate], CasADi branch *)
Definition lnp_concatenate (l : list arr) (axis : BinInt.Z) : result cmat :=
  if Z.eqb axis 0 then cas_vertcat (map dm l) else if Z.eqb axis 1 then cas_horzcat (map dm l) else Raise ValueError.
(** array.py:88-90 [hstack], 93-95 [vstack] *)
Definition lnp_hstack (l : list arr) : result cmat := cas_horzcat (map dm l).
Definition lnp_vstack (l : list arr) : result cmat := cas_vertcat (map dm l).
(** array.py:168-174 [dstack], CasADi branch *)
Definition lnp_dstack (l : list arr) : result cmat := Raise ValueError.

(** ** array.py:7-33 [array] of a list.  An element is a number, a CasADi symbol or a list of those *)
Inductive elem := ENum (r : R) | ESym (m : cmat).
Inductive item := INum (r : R) | ISym (m : cmat) | ISeq (l : list elem).
Definition elem_cas (e : elem) : bool := match e with ESym _ => true | _ => false end.
Definition item_cas (i : item) : bool := match i with INum _ => false | ISym _ => true | ISeq l => existsb elem_cas l end.
Definition elem_dm (e : elem) : cmat := match e with ENum r => cscalar r | ESym m => m end.
(** [make_row]: a row whose horzcat fails is passed on as a list, which vertcat then rejects *)
Definition make_row (i : item) : result cmat :=
  match i with
  | INum r => Ok (cscalar r)
  | ISym m => Ok m
  | ISeq l => match cas_horzcat (map elem_dm l) with Ok m => Ok m | Raise _ => Raise NotImplementedError end
  end.
(** numpy.array of numbers or of equally long lists of numbers *)
Fixpoint nums (l : list item) : option (list R) := match l with [] => Some [] | INum r :: t => match nums t with Some u => Some (r :: u) | None => None end | _ => None end.
Fixpoint enums (l : list elem) : option (list R) := match l with [] => Some [] | ENum r :: t => match enums t with Some u => Some (r :: u) | None => None end | _ => None end.
Fixpoint rows (l : list item) : option (list (list R)) :=
  match l with [] => Some [] | ISeq e :: t => match enums e, rows t with Some v, Some u => Some (v :: u) | _, _ => None end | _ => None end.
Definition np_array (l : list item) : result arr :=
  match nums l with
  | Some v => Ok (Vec v)
  | None => match rows l with
            | Some ((v :: _) as m) => if forallb (fun w => Nat.eqb (List.length w) (List.length v)) m then Ok (Mat {| cr := List.length m; cc := List.length v; ce := fun i j => vget j (nth i m []) |}) else Raise ValueError
            | _ => Raise ValueError
            end
  end.
Definition lnp_array (l : list item) : result arr :=
  if existsb item_cas l then fmap CasM (bind (mapM make_row l) cas_vertcat) else np_array l.

(** ** Splitting a matrix: array.py:134-156 [split], 159-161 [hsplit], 164-165 [vsplit] *)
Inductive sections := Sections (n : nat) | Indices (l : list nat) | Tuple (l : list nat).
Definition take_rows (x : cmat) (is : list nat) : cmat := {| cr := List.length is; cc := cc x; ce := fun i j => ce x (nth i is 0%nat) j |}.
Definition take_cols (x : cmat) (js : list nat) : cmat := {| cr := cr x; cc := List.length js; ce := fun i j => ce x i (nth j js 0%nat) |}.
(** a tuple of indices is neither an int nor a list and reaches CasADi unchanged *)
Definition split_slices (l : list nat) (s : sections) : result (list (list nat)) :=
  match s with Sections n => lnp_split_int l n | Indices idx => lnp_split_list l idx | Tuple idx => cas_split_offsets l idx end.
Definition lnp_split (x : cmat) (s : sections) (axis : BinInt.Z) : result (list cmat) :=
  if Z.eqb axis 0 then fmap (map (take_rows x)) (split_slices (seq 0 (cr x)) s)
  else if (Z.eqb axis 1 || Z.eqb axis (-1))%bool then fmap (map (take_cols x)) (split_slices (seq 0 (cc x)) s)
  else if Z.eqb axis (-2) then    (* array.shape[-2] is the number of rows, but split_func was never assigned *)
    match s with
    | Sections n => if Nat.eqb n 0 then Raise ZeroDivisionError else if negb (Nat.eqb (cr x mod n) 0) then Raise ValueError else Raise NameError
    | _ => Raise NameError
    end
  else match s with Tuple _ => Raise NameError | _ => Raise IndexError end.
Definition lnp_hsplit (x : cmat) (s : sections) : result (list cmat) := lnp_split x s 1.
Definition lnp_vsplit (x : cmat) (s : sections) : result (list cmat) := lnp_split x s 0.

(** ** Shapes *)
(** array.py:177-196 [length], CasADi branch *)
Definition lnp_length (x : cmat) : nat := if negb (Nat.eqb (cr x) 1) then cr x else cc x.
(** array.py:199-221 [diag], CasADi branch *)
Definition cdiag (x : cmat) : cmat :=
  let n := if Nat.eqb (cc x) 1 then cr x else cc x in
  {| cr := n; cc := n; ce := fun i j => if Nat.eqb i j then (if Nat.eqb (cc x) 1 then ce x i 0 else ce x 0 i) else 0 |}.
Definition lnp_diag (x : cmat) (k : BinInt.Z) : result cmat :=
  if negb (Z.eqb k 0) then Raise NotImplementedError
  else if (Nat.eqb (cr x) 1 || Nat.eqb (cc x) 1)%bool then Ok (cdiag x)
  else if Nat.eqb (cr x) (cc x) then Raise NotImplementedError else Raise ValueError.
(** array.py:285-291 [reshape], CasADi branch: the entries keep their column-major order *)
Definition lnp_reshape (x : cmat) (r c : nat) : result cmat :=
  if Nat.eqb (r * c) (cr x * cc x) then Ok {| cr := r; cc := c; ce := fun i j => ce x ((i + j * r) mod cr x) ((i + j * r) / cr x) |} else Raise RuntimeError.
(** array.py:294-295 [zeros], 298-299 [zeros_like], 302-303 [eye], 306-307 [ones]; an integer n is the shape n x 1 (n x n for eye) *)
Definition lnp_zeros (r c : nat) : cmat := {| cr := r; cc := c; ce := fun _ _ => 0 |}.
Definition lnp_ones (r c : nat) : cmat := {| cr := r; cc := c; ce := fun _ _ => 1 |}.
Definition lnp_zeros_like (x : cmat) : cmat := lnp_zeros (cr x) (cc x).
Definition lnp_eye (n : nat) : cmat := {| cr := n; cc := n; ce := fun i j => if Nat.eqb i j then 1 else 0 |}.

(** ** trig.py:40-42 [arctan2d]; numpy.arctan2 *)
Definition arctan2 (y x : R) : R :=
  if Rlt_dec 0 x then atan (y / x)
  else if Rlt_dec x 0 then (if Rle_dec 0 y then atan (y / x) + PI else atan (y / x) - PI)
  else if Rlt_dec 0 y then PI / 2 else if Rlt_dec y 0 then - (PI / 2) else 0.
Definition arctan2d (y x : R) : R := degrees (arctan2 y x).
