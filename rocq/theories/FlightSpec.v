(** Flights of the drone, discretized by the trapezoidal rule, in elementary terms. *)
From Verif Require Import Base RBase OcpModel UtilsModel OcpSpec BuildSpec BuildModel DroneModel FlightModel.

(** position, speed, angle and inputs at points 0 .. n, which divide the total time in the proportions of [pts] *)
Record plan := { f_T : R; f_x : nat -> R; f_vx : nat -> R; f_z : nat -> R; f_vz : nat -> R; f_th : nat -> R; f_f : nat -> R; f_om : nat -> R }.
Section Flight.
Variables (n : nat) (pts : list R) (g : R).
(** the mean of the rate of change at both ends times the duration *)
Definition moves (k : plan) (q rate : nat -> R) : Prop := forall i, (i < n)%nat -> q (S i) - q i = (nth (S i) pts 0 - nth i pts 0) * f_T k * ((rate i + rate (S i)) / 2).
Record flight (k : plan) : Prop := {
  fl_x : moves k (f_x k) (f_vx k);
  fl_vx : moves k (f_vx k) (fun s => f_f k s * sin (f_th k s));
  fl_z : moves k (f_z k) (f_vz k);
  fl_vz : moves k (f_vz k) (fun s => f_f k s * cos (f_th k s) - g);
  fl_th : moves k (f_th k) (f_om k);
  fl_time : 1 / 10 <= f_T k <= 50;
  fl_limits : forall s, (s <= n)%nat -> -50 <= f_x k s <= 50 /\ -50 <= f_vx k s <= 50 /\ -50 <= f_z k s <= 50 /\ -50 <= f_vz k s <= 50 /\ -10 * PI <= f_th k s <= 10 * PI /\
    1 <= f_f k s <= 20 /\ -10 <= f_om k s <= 10;
  fl_start : f_x k 0 = 0 /\ f_vx k 0 = 0 /\ f_z k 0 = 0 /\ f_vz k 0 = 0 /\ f_th k 0 = 0;
  fl_end : f_x k n = 0 /\ f_vx k n = 0 /\ f_z k n = 5 /\ f_vz k n = 0 /\ f_th k n = 2 * PI }.
(** the vector of variables of the problem holds the plan, its rates of change and the sine of the angle *)
Record logs (o : ocp) (x : list R) (k : plan) : Prop := {
  lg_len : List.length x = num_dec (oc_op o);
  lg_T : val o x "global" "mesh_scale" 0 (f_T k);
  lg_at : forall s, (s <= n)%nat ->
    val o x "states" "x" s (f_x k s) /\ val o x "states" "x_dot" s (f_vx k s) /\ val o x "states" "z" s (f_z k s) /\ val o x "states" "z_dot" s (f_vz k s) /\ val o x "states" "theta" s (f_th k s) /\
    val o x "inputs" "f" s (f_f k s) /\ val o x "inputs" "omega" s (f_om k s) /\
    val o x "states_dot" "x" s (f_vx k s) /\ val o x "states_dot" "x_dot" s (f_f k s * sin (f_th k s)) /\ val o x "states_dot" "z" s (f_vz k s) /\
    val o x "states_dot" "z_dot" s (f_f k s * cos (f_th k s) - g) /\ val o x "states_dot" "theta" s (f_om k s) /\ val o x "con_outputs" "sin_theta" s (sin (f_th k s)) }.
End Flight.

(** what is assumed of the derivative functions: sizes only *)
Definition shapes (jac : list string -> list R -> R -> R -> list R) (hess : list string -> list R -> list R -> R -> R -> list R) (js hs : list string -> list nat * list nat) : Prop :=
  let con := ["sin_theta"] in (* 5 states, 2 inputs, 5 derivatives, 1 output: 13 variables; 6 equations *)
  (forall w m p, List.length w = 13%nat -> List.length (jac con w m p) = List.length (fst (js con))) /\
  (forall w l m p, List.length w = 13%nat -> List.length l = 6%nat -> List.length (hess con w l m p) = List.length (fst (hs con))) /\
  (List.length (fst (js con)) = List.length (snd (js con)) /\ Forall (fun r => r < 6)%nat (fst (js con)) /\ Forall (fun c => c < 13)%nat (snd (js con))) /\
  (List.length (fst (hs con)) = List.length (snd (hs con)) /\ Forall (fun r => r < 13)%nat (fst (hs con)) /\ Forall (fun c => c < 13)%nat (snd (hs con))).
(** the gravity is changed, or the scales; nothing else *)
Definition tuning (c : scall R) : Prop := match c with SParams _ | SScales _ => True | _ => False end.
