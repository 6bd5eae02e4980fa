(** What a user of the ModelSolver expects, by variable name: the scale, the bounds and the objectives after a sequence of calls, and the problem that is solved. *)
From Verif Require Import Base RBase UtilsModel IoModel AlgModel AlgSpec NlpModel SolverModel.

(** the names of the model once the solver has chosen the constrained outputs: exactly those given, none if none are given *)
Definition chosen_names (nm0 : string -> list string) (con : option (list string)) : string -> list string :=
  fun g => if String.eqb g "con_outputs" then match con with Some l => l | None => [] end else nm0 g.
(** a lower bound below an upper one *)
Definition below (lb ub : ebound) : Prop := match lb, ub with NegInf, _ => True | _, PosInf => True | Fin x, Fin y => x <= y | Fin _, NegInf => False | PosInf, Fin _ => False | PosInf, NegInf => False end.
(** the name of an objective: group.name.weight=w *)
Definition objective_name (show : R -> string) (g n : string) (w : R) : string := (g ++ "." ++ n ++ ".weight=" ++ show w)%string.

Section S.
Variable nm : string -> list string.
Variable forward : dict R -> dict R -> R -> result (dict R * dict R).
Variable show : R -> string.
Definition is_variable (g n : string) : Prop := In g flat_groups /\ In n (nm g).
Definition override {A} (f : string -> string -> A) (g n : string) (v : A) : string -> string -> A := fun g' n' => if (String.eqb g' g && String.eqb n' n)%bool then v else f g' n'.
(** a scale is accepted if it is positive and for a state, an input or a constrained output *)
Definition scale_ok (g n : string) (v : R) : Prop := 0 < v /\ In g ["states"; "inputs"; "con_outputs"] /\ In n (nm g).
Inductive scale_step (sc : string -> string -> R) : mop -> (string -> string -> R) -> Prop :=
| scale_set g n v : scale_ok g n v -> scale_step sc (MScale g n v) (override sc g n v)
| scale_refused g n v : ~ scale_ok g n v -> scale_step sc (MScale g n v) sc
| scale_other op : match op with MScale _ _ _ => False | _ => True end -> scale_step sc op sc.
(** bounds are accepted if lower <= upper; a number means an equality *)
Definition bound_ok (g n : string) (b : bound_arg) : Prop := is_variable g n /\ match b with BNumber _ => True | BTuple lb ub => below lb ub end.
Definition bound_pair (b : bound_arg) : ebound * ebound := match b with BNumber v => (Fin v, Fin v) | BTuple lb ub => (lb, ub) end.
Inductive bound_step (bd : string -> string -> ebound * ebound) : mop -> (string -> string -> ebound * ebound) -> Prop :=
| bound_set g n b : bound_ok g n b -> bound_step bd (MBounds g n b) (override bd g n (bound_pair b))
| bound_refused g n b : ~ bound_ok g n b -> bound_step bd (MBounds g n b) bd
| bound_other op : match op with MBounds _ _ _ => False | _ => True end -> bound_step bd op bd.
(** objectives: name, variable and weight; a name that exists is refused *)
Inductive obj_step (os : dict (string * string * R)) : mop -> dict (string * string * R) -> Prop :=
| obj_add g n w : is_variable g n -> ~ In (objective_name show g n w) (keys os) -> obj_step os (MObj g n w) (os ++ [(objective_name show g n w, (g, n, w))])
| obj_refused g n w : ~ is_variable g n \/ In (objective_name show g n w) (keys os) -> obj_step os (MObj g n w) os
| obj_del name : obj_step os (MDelObj name) (filter (fun kv => negb (String.eqb name (fst kv))) os)
| obj_other op : match op with MObj _ _ _ | MDelObj _ => False | _ => True end -> obj_step os op os.
(** any number of calls *)
Inductive steps {A} (step : A -> mop -> A -> Prop) : A -> list mop -> A -> Prop :=
| steps_nil a : steps step a [] a
| steps_cons a op b ops c : step a op b -> steps step b ops c -> steps step a (op :: ops) c.

(** the problem: the model's equations hold, by name *)
Definition equations_hold (x : list R) : Prop :=
  exists ds di sd out, group_dict nm x "states" ds /\ group_dict nm x "inputs" di /\ forward ds di 0 = Ok (sd, out) /\
    (forall n v, value_of nm x "states_dot" n v -> dget n sd = Some v) /\ (forall n v, value_of nm x "con_outputs" n v -> dget n out = Some v) /\ (forall n, In n (nm "residuals") -> dget n out = Some 0).
Definition bounds_hold (bd : string -> string -> ebound * ebound) (x : list R) : Prop := forall g n v, value_of nm x g n v -> ele (fst (bd g n)) v /\ ege (snd (bd g n)) v.
Definition wanted (bd : string -> string -> ebound * ebound) (x : list R) : Prop := List.length x = num_implicit_var nm /\ bounds_hold bd x /\ equations_hold x.
(** the objective: the sum of weight times variable *)
Inductive cost_is : dict (string * string * R) -> list R -> R -> Prop :=
| cost_nil x : cost_is [] x 0
| cost_cons name g n w os x v c : value_of nm x g n v -> cost_is os x c -> cost_is ((name, (g, n, w)) :: os) x (w * v + c).
Definition best (bd : string -> string -> ebound * ebound) (os : dict (string * string * R)) (x : list R) : Prop :=
  wanted bd x /\ forall y c c', wanted bd y -> cost_is os x c -> cost_is os y c' -> c <= c'.
End S.
(** CasADi returns as many values as its structures have positions, all inside the matrices *)
Record cas_ok (nm : string -> list string) (jac : list R -> list R) (hess : list R -> list R -> list R) (js hs : list nat * list nat) : Prop := {
  ca_j : List.length (fst js) = List.length (snd js) /\ Forall (fun r => (r < num_implicit_res nm)%nat) (fst js) /\ Forall (fun c => (c < num_implicit_var nm)%nat) (snd js);
  ca_h : List.length (fst hs) = List.length (snd hs) /\ Forall (fun r => (r < num_implicit_var nm)%nat) (fst hs) /\ Forall (fun c => (c < num_implicit_var nm)%nat) (snd hs);
  ca_jv : forall x, List.length x = num_implicit_var nm -> List.length (jac x) = List.length (fst js);
  ca_hv : forall x lam, List.length x = num_implicit_var nm -> List.length lam = num_implicit_res nm -> List.length (hess x lam) = List.length (fst hs) }.
(** the group named in a call has no dot *)
Definition plain_call (op : mop) : Prop := match op with MBounds g _ _ | MScale g _ _ | MObj g _ _ => no_char dot g = true | MDelObj _ => True end.
(** what the user supplies is in order *)
Definition usable (nm : string -> list string) (forward : dict R -> dict R -> R -> result (dict R * dict R)) (jac : list R -> list R) (hess : list R -> list R -> list R) (js hs : list nat * list nat) : Prop :=
  names_ok nm /\ forward_ok nm forward 0 /\ cas_ok nm jac hess js hs.
(** the user's point [x] for the optimizer's point [y]: each variable times its scale *)
Definition unscaled (nm : string -> list string) (sc : string -> string -> R) (y x : list R) : Prop :=
  List.length x = List.length y /\ forall g n v, value_of nm y g n v -> value_of nm x g n (v * sc g n).
(** what a fresh solver starts from: all scales 1, no bounds, no objective *)
Definition fresh_scales : string -> string -> R := fun _ _ => 1.
Definition fresh_bounds : string -> string -> ebound * ebound := fun _ _ => (NegInf, PosInf).
