(** Plane geometry and piecewise linear functions, for the tracks. *)
From Verif Require Import Base RBase.
From Coq Require Export Rtrigo1 Ratan.

(** at least two samples, at strictly increasing positions *)
Definition grid (s : list R) : Prop := (2 <= List.length s)%nat /\ forall i, (S i < List.length s)%nat -> vget i s < vget (S i) s.
(** y is the value at x of the function that is linear between the samples and constant outside them *)
Definition piecewise_linear (xp fp : list R) (x y : R) : Prop :=
  (x <= vget 0 xp -> y = vget 0 fp) /\ (vget (List.length xp - 1) xp <= x -> y = vget (List.length xp - 1) fp) /\
  forall i, (S i < List.length xp)%nat -> vget i xp <= x <= vget (S i) xp ->
    y * (vget (S i) xp - vget i xp) = vget i fp * (vget (S i) xp - x) + vget (S i) fp * (x - vget i xp).
(** euclidean distance *)
Definition pdist (x1 y1 x2 y2 : R) : R := sqrt ((x2 - x1) * (x2 - x1) + (y2 - y1) * (y2 - y1)).
(** the point list, moved by a rotation about the origin and a translation *)
Definition turned_x (a tx : R) (x y : list R) : list R := map2 (fun u v => tx + (cos a * u - sin a * v)) x y.
Definition turned_y (a ty : R) (x y : list R) : list R := map2 (fun u v => ty + (sin a * u + cos a * v)) x y.
(** consecutive points are different *)
Definition moving (x y : list R) : Prop := (2 <= List.length x)%nat /\ List.length y = List.length x /\
  forall i, (S i < List.length x)%nat -> vget (S i) x <> vget i x \/ vget (S i) y <> vget i y.
(** n points on a circle, counter clockwise, with the angle d between neighbours *)
Definition circle_x (r cx phi d : R) (n : nat) : list R := map (fun i => cx + r * cos (phi + INR i * d)) (seq 0 n).
Definition circle_y (r cy phi d : R) (n : nat) : list R := map (fun i => cy + r * sin (phi + INR i * d)) (seq 0 n).
(** the road never turns back onto the point before the last *)
Definition no_return (x y : list R) : Prop := forall i, (S (S i) < List.length x)%nat -> vget (S (S i)) x <> vget i x \/ vget (S (S i)) y <> vget i y.
(** g is, at every sample, the slope of f over s: of the parabola through the sample and its two neighbours, and of the chord at the two ends *)
Definition slopes (s f g : list R) : Prop := let n := List.length s in List.length g = n /\
  vget 0 g * (vget 1 s - vget 0 s) = vget 1 f - vget 0 f /\
  vget (n - 1) g * (vget (n - 1) s - vget (n - 2) s) = vget (n - 1) f - vget (n - 2) f /\
  forall i, (S (S i) < n)%nat -> exists a b c, (forall j, (i <= j <= S (S i))%nat -> a + b * vget j s + c * (vget j s * vget j s) = vget j f) /\ vget (S i) g = b + 2 * c * vget (S i) s.
(** distance, curvature and heading along the points: the distance is that along the polyline, the curvature (x' y'' - x'' y') / (x'^2 + y'^2)^(3/2), and the heading
    starts in the direction of the first step and is the integral of the curvature *)
Definition curvilinear (x y s k h : list R) : Prop := let n := List.length x in
  List.length s = n /\ List.length k = n /\ List.length h = n /\ vget 0 s = 0 /\
  (forall i, (S i < n)%nat -> vget (S i) s - vget i s = pdist (vget i x) (vget i y) (vget (S i) x) (vget (S i) y)) /\
  (exists x1 y1 x2 y2, slopes s x x1 /\ slopes s y y1 /\ slopes s x1 x2 /\ slopes s y1 y2 /\
     forall i, (i < n)%nat -> let v := sqrt (vget i x1 * vget i x1 + vget i y1 * vget i y1) in 0 < v /\ vget i k * (v * v * v) = vget i x1 * vget i y2 - vget i x2 * vget i y1) /\
  cos (vget 0 h) * pdist (vget 0 x) (vget 0 y) (vget 1 x) (vget 1 y) = vget 1 x - vget 0 x /\ sin (vget 0 h) * pdist (vget 0 x) (vget 0 y) (vget 1 x) (vget 1 y) = vget 1 y - vget 0 y /\ - PI < vget 0 h <= PI /\
  forall i, (S i < n)%nat -> vget (S i) h - vget i h = (vget i k + vget (S i) k) / 2 * (vget (S i) s - vget i s).
