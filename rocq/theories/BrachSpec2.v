(** Rides down a wire that is made of [n] pieces, discretized by the trapezoidal rule, in elementary terms. *)
From Verif Require Import Base RBase OcpModel UtilsModel OcpSpec BuildSpec BuildModel BrachModel.

(** total time; speed, position and slope at points 0 .. n, which divide the total time in the proportions of [pts] *)
Record slide := { s_T : R; s_v : nat -> R; s_x : nat -> R; s_y : nat -> R; s_th : nat -> R }.
Section Slide.
Variables (n : nat) (pts : list R) (g dx dy : R).
(** the mean of the rate of change at both ends times the duration *)
Definition steps (k : slide) (q rate : nat -> R) : Prop := forall i, (i < n)%nat -> q (S i) - q i = (nth (S i) pts 0 - nth i pts 0) * s_T k * ((rate i + rate (S i)) / 2).
Record slides (k : slide) : Prop := {
  sl_v : steps k (s_v k) (fun s => - g * sin (s_th k s));
  sl_x : steps k (s_x k) (fun s => cos (s_th k s) * s_v k s);
  sl_y : steps k (s_y k) (fun s => sin (s_th k s) * s_v k s);
  sl_time : 1 / 100 <= s_T k <= 10;
  sl_slope : forall s, (s <= n)%nat -> - PI / 2 <= s_th k s <= PI / 2;
  sl_start : s_v k 0 = 0 /\ s_x k 0 = 0 /\ s_y k 0 = 0;
  sl_end : s_x k n = dx /\ s_y k n = dy }.
(** the vector of variables of the problem holds the slide and its rates of change *)
Record records (o : ocp) (x : list R) (k : slide) : Prop := {
  rc_len : List.length x = num_dec (oc_op o);
  rc_T : val o x "global" "mesh_scale" 0 (s_T k);
  rc_at : forall s, (s <= n)%nat ->
    val o x "states" "v" s (s_v k s) /\ val o x "states" "x" s (s_x k s) /\ val o x "states" "y" s (s_y k s) /\ val o x "inputs" "theta" s (s_th k s) /\
    val o x "states_dot" "v" s (- g * sin (s_th k s)) /\ val o x "states_dot" "x" s (cos (s_th k s) * s_v k s) /\ val o x "states_dot" "y" s (sin (s_th k s) * s_v k s) }.
End Slide.

(** what is assumed of the derivative functions: sizes only (3 states, 1 input, 3 derivatives: 7 variables; 3 equations) *)
Definition sizes (jac : list string -> list R -> R -> R -> list R) (hess : list string -> list R -> list R -> R -> R -> list R) (js hs : list string -> list nat * list nat) : Prop :=
  (forall w m p, List.length w = 7%nat -> List.length (jac [] w m p) = List.length (fst (js []))) /\
  (forall w l m p, List.length w = 7%nat -> List.length l = 3%nat -> List.length (hess [] w l m p) = List.length (fst (hs []))) /\
  (List.length (fst (js [])) = List.length (snd (js [])) /\ Forall (fun r => r < 3)%nat (fst (js [])) /\ Forall (fun c => c < 7)%nat (snd (js []))) /\
  (List.length (fst (hs [])) = List.length (snd (hs [])) /\ Forall (fun r => r < 7)%nat (fst (hs [])) /\ Forall (fun c => c < 7)%nat (snd (hs []))).
(** the gravity is changed, or the scales; nothing else *)
Definition tunes (c : scall R) : Prop := match c with SParams _ | SScales _ => True | _ => False end.
