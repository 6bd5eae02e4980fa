(** Specification vocabulary for the nonlinear-programming layer: the problem the user posed, in
    the user's own (unscaled) variables. *)
From Verif Require Import Base RBase NlpModel.

(** the user's constraints and objective: the raw callables, unscaled *)
Definition user_constraints (p : prob) (x : list R) : list R := concat (map (fun c => c_f c x) (values (p_cons p))).
Definition user_objective (p : prob) (x : list R) : R := rsum (map (fun o => o_f o x) (values (p_objs p))).

(** all lumos problems pose equality constraints g(x) = 0 (set_cons) *)
Definition user_feasible (p : prob) (lb ub : list ebound) (x : list R) : Prop :=
  List.length x = p_n p /\ within lb ub x /\ Forall (fun v => v = 0) (user_constraints p x).

Definition user_optimum (p : prob) (lb ub : list ebound) (x : list R) : Prop :=
  user_feasible p lb ub x /\ forall y, user_feasible p lb ub y -> user_objective p x <= user_objective p y.

(** the problem handed to the optimizer *)
Definition ip_feasible (n : nat) (q : ipopt_problem) (y : list R) : Prop :=
  List.length y = n /\ within (ip_lb q) (ip_ub q) y /\
  exists g, ip_constraints q y = Ok g /\ within (ip_cl q) (ip_cu q) g.
Definition ip_optimum (n : nat) (q : ipopt_problem) (y : list R) : Prop :=
  ip_feasible n q y /\ exists v, ip_objective q y = Ok v /\
  forall z w, ip_feasible n q z -> ip_objective q z = Ok w -> v <= w.
