(** Model of lumos/models/tracks.py.  Arrays are lists of reals; floating point is not modelled. *)
From Verif Require Import Base RBase.
From Coq Require Export Rtrigo1 Ratan.

(** ** numpy primitives *)
(** np.diff of a vector *)
Fixpoint diff1 (l : list R) : list R := match l with a :: ((b :: _) as r) => (b - a) :: diff1 r | _ => [] end.
(** np.cumsum *)
Fixpoint cumsum_from (acc : R) (l : list R) : list R := match l with [] => [] | a :: r => (acc + a) :: cumsum_from (acc + a) r end.
Definition cumsum (l : list R) : list R := cumsum_from 0 l.
(** np.arctan2 (signed zeros are not modelled) *)
Definition arctan2 (y x : R) : R :=
  if Rlt_dec 0 x then atan (y / x)
  else if Rlt_dec x 0 then (if Rle_dec 0 y then atan (y / x) + PI else atan (y / x) - PI)
  else if Rlt_dec 0 y then PI / 2 else if Rlt_dec y 0 then - (PI / 2) else 0.
(** np.gradient(f, s), edge_order 1: second order differences for a non uniform spacing inside, one sided differences at the two ends *)
Definition gradient_at (n : nat) (f s : list R) (i : nat) : R :=
  if Nat.eqb i 0 then (vget 1 f - vget 0 f) / (vget 1 s - vget 0 s)
  else if Nat.eqb (S i) n then (vget i f - vget (i - 1) f) / (vget i s - vget (i - 1) s)
  else let dx1 := vget i s - vget (i - 1) s in
       let dx2 := vget (S i) s - vget i s in
       let a := - dx2 / (dx1 * (dx1 + dx2)) in
       let b := (dx2 - dx1) / (dx1 * dx2) in
       let c := dx1 / (dx2 * (dx1 + dx2)) in
       a * vget (i - 1) f + b * vget i f + c * vget (S i) f.
Definition np_gradient (f s : list R) : result (list R) :=
  if negb (Nat.eqb (List.length f) (List.length s)) then Raise ValueError
  else if Nat.ltb (List.length f) 2 then Raise ValueError
  else Ok (map (gradient_at (List.length f) f s) (seq 0 (List.length f))).
(** np.interp(x, xp, fp): the C loop; the grid is not checked to be increasing *)
Fixpoint search (i : nat) (rest : list R) (x : R) : nat := match rest with g :: r => if Rlt_dec x g then i else search (S i) r x | [] => i end.
Definition np_interp (x : R) (xp fp : list R) : result R :=
  if Nat.eqb (List.length xp) 0 then Raise ValueError
  else if negb (Nat.eqb (List.length xp) (List.length fp)) then Raise ValueError
  else let n := List.length xp in
  if Rlt_dec x (vget 0 xp) then Ok (vget 0 fp)
  else if Rlt_dec (vget (n - 1) xp) x then Ok (vget (n - 1) fp)
  else let j := search 0 (tl xp) x in
  if Nat.eqb j (n - 1) then Ok (vget j fp)
  else let slope := (vget (S j) fp - vget j fp) / (vget (S j) xp - vget j xp) in Ok (slope * (x - vget j xp) + vget j fp).

(** ** tracks.py *)
(** tracks.py:34-37 [_trapz]; arrays of different length raise (numpy's broadcasting of a single panel is not modelled) *)
Definition trapz (y x : list R) : result (list R) :=
  if negb (Nat.eqb (List.length y) (List.length x)) then Raise ValueError
  else let dx := diff1 x in
       let deltas := vmul (map (fun v => v / 2) (vadd (firstn (List.length y - 1) y) (tl y))) dx in
       Ok (cumsum (0 :: deltas)).
(** tracks.py:40-57 [cartesian_to_curvilinear]: (s, curvature, heading).  v ** 1.5 is v * sqrt v; a division by zero (nan with a warning) is not modelled *)
Definition cartesian_to_curvilinear (x y : list R) : result (list R * list R * list R) :=
  if negb (Nat.eqb (List.length x) (List.length y)) then Raise ValueError
  else let ds := map sqrt (vadd (map (fun v => v * v) (diff1 x)) (map (fun v => v * v) (diff1 y))) in
  let s := cumsum (0 :: ds) in
  bind (np_gradient x s) (fun dx =>
  bind (np_gradient y s) (fun dy =>
  bind (np_gradient dx s) (fun d2x =>
  bind (np_gradient dy s) (fun d2y =>
  let speed2 := vadd (vmul dx dx) (vmul dy dy) in
  let curvature := vdiv (vsub (vmul dx d2y) (vmul d2x dy)) (map (fun v => v * sqrt v) speed2) in
  let initial_heading := arctan2 (vget 0 dy) (vget 0 dx) in
  bind (trapz curvature s) (fun t =>
  let heading := map (fun v => v + initial_heading) t in
  Ok (s, curvature, heading)))))).
(** tracks.py:60-67 [curvilinear_to_cartesian]: (x, y, heading) *)
Definition curvilinear_to_cartesian (s curvature : list R) (x0 y0 heading0 : R) : result (list R * list R * list R) :=
  bind (trapz curvature s) (fun t =>
  let heading := map (fun v => v + heading0) t in
  bind (trapz (map cos heading) s) (fun tx =>
  bind (trapz (map sin heading) s) (fun ty =>
  Ok (map (fun v => v + x0) tx, map (fun v => v + y0) ty, heading)))).

(** tracks.py:70-109 [RaceTrack.__init__]; the counts of violated bounds are only logged.  Comparing the curvature with the distances needs equal lengths
    (broadcasting of arrays with one entry is not modelled). *)
Record race_track := { rt_s : list R; rt_curvature : list R; rt_heading : list R; rt_x : list R; rt_y : list R; rt_left : list R; rt_right : list R }.
Definition race_track_init (x y s curvature heading : list R) (left_distance right_distance : option (list R)) : result race_track :=
  let left := match left_distance with Some l => l | None => map (fun _ => 1 * 5) s end in
  let right := match right_distance with Some l => l | None => map (fun _ => 1 * 5) s end in
  if negb (Nat.eqb (List.length curvature) (List.length left)) then Raise ValueError
  else if negb (Nat.eqb (List.length curvature) (List.length right)) then Raise ValueError
  else match s with
       | [] => Raise IndexError
       | s0 :: _ => Ok {| rt_s := map (fun v => v - s0) s; rt_curvature := curvature; rt_heading := heading; rt_x := x; rt_y := y; rt_left := left; rt_right := right |}
       end.
(** tracks.py:111-122 *)
Definition from_cartesian (x y : list R) (left right : option (list R)) : result race_track :=
  bind (cartesian_to_curvilinear x y) (fun r => let '(s, curvature, heading) := r in race_track_init x y s curvature heading left right).
(** tracks.py:124-137: x0 and y0 are left at their default 0 *)
Definition from_curvilinear (s curvature : list R) (heading0 : R) (left right : option (list R)) : result race_track :=
  bind (curvilinear_to_cartesian s curvature 0 0 heading0) (fun r => let '(x, y, heading) := r in race_track_init x y s curvature heading left right).
(** tracks.py:154-168 *)
Definition curvature_at (t : race_track) (s : R) : result R := np_interp s (rt_s t) (rt_curvature t).
Definition heading_at (t : race_track) (s : R) : result R := np_interp s (rt_s t) (rt_heading t).
Definition left_distance_at (t : race_track) (s : R) : result R := np_interp s (rt_s t) (rt_left t).
Definition right_distance_at (t : race_track) (s : R) : result R := np_interp s (rt_s t) (rt_right t).
(** tracks.py:170-172 *)
Definition total_distance (t : race_track) : result R := match rev (rt_s t) with [] => Raise IndexError | a :: _ => Ok a end.

(** tracks.py:174-201 [ConstCurvTrack]; the methods of the base class it does not override (tracks.py:12-31) return None *)
Record const_curv := { cct_curvature : R; cct_start_heading : R; cct_half_width : R }.
Definition cc_heading_at (t : const_curv) (s : R) : R := cct_start_heading t + cct_curvature t * s.
Definition cc_curvature_at (t : const_curv) (s : R) : R := cct_curvature t.
Definition cc_half_width_at (t : const_curv) (s : R) : R := cct_half_width t.
Definition cc_left_distance_at (t : const_curv) (s : R) : option R := None.
Definition cc_right_distance_at (t : const_curv) (s : R) : option R := None.
