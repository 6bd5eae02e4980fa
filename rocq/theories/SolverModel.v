(** Model of lumos/optimal_control/model_solver.py on top of the composite problem (NlpModel) and the model algebra (AlgModel).  Numbers are reals. *)
From Verif Require Import Base RBase TreeModel UtilsModel IoModel AlgModel NlpModel.

(** what the solver holds.  [s_names] are the names of the model object, which is shared with whoever else uses the model; [s_enum] the names frozen in the
    IntEnum at construction; [s_vs] is _var_scales *)
Record solver := { s_names : string -> list string; s_enum : list string; s_prob : prob; s_lb : list ebound; s_ub : list ebound; s_ncon : nat; s_vs : dict (dict R) }.
Definition with_prob (s : solver) (p : prob) : solver :=
  {| s_names := s_names s; s_enum := s_enum s; s_prob := p; s_lb := s_lb s; s_ub := s_ub s; s_ncon := s_ncon s; s_vs := s_vs s |}.
Definition with_vs (s : solver) (vs : dict (dict R)) : solver :=
  {| s_names := s_names s; s_enum := s_enum s; s_prob := s_prob s; s_lb := s_lb s; s_ub := s_ub s; s_ncon := s_ncon s; s_vs := vs |}.
Definition with_bounds (s : solver) (lb ub : list ebound) : solver :=
  {| s_names := s_names s; s_enum := s_enum s; s_prob := s_prob s; s_lb := lb; s_ub := ub; s_ncon := s_ncon s; s_vs := s_vs s |}.
Definition with_names (s : solver) (nm : string -> list string) : solver :=
  {| s_names := nm; s_enum := s_enum s; s_prob := s_prob s; s_lb := s_lb s; s_ub := s_ub s; s_ncon := s_ncon s; s_vs := s_vs s |}.

(** models/base.py:476-480 [set_con_outputs]: the names are replaced without any check *)
Definition set_con_outputs (nm : string -> list string) (con : list string) : string -> list string := fun g => if String.eqb g "con_outputs" then con else nm g.
(** model_solver.py:84-100 [_construct_name], [input_names] *)
Definition input_names (nm : string -> list string) : list string := flat_map (fun g => map (svname g) (nm g)) flat_groups.
(** model_solver.py:102-103 [get_var_idx] *)
Definition get_var_idx (s : solver) (g n : string) : result nat := enum_get (svname g n) (s_enum s).
(** model_solver.py:211-213 [get_var] *)
Definition get_var (s : solver) (x : list R) (g n : string) : result R :=
  bind (get_var_idx s g n) (fun i => match nth_error x i with Some v => Ok v | None => Raise IndexError end).

(** a[i] = v on an array *)
Definition np_set {A} (a : list A) (i : nat) (v : A) : result (list A) := if Nat.ltb i (List.length a) then Ok (upd i v a) else Raise IndexError.
(** self._var_scales[g][n] *)
Definition var_scale (vs : dict (dict R)) (g n : string) : result R := bind (lookup_err g vs) (lookup_err n).
(** model_solver.py:178-182: the decision variable scales, written one by one *)
Definition write_scales (nm : string -> list string) (vs : dict (dict R)) (ds : list R) : result (list R) :=
  foldM (fun ds g => foldM (fun ds n => bind (var_scale vs g n) (fun v => bind (get_var_index_in_flat nm g n) (fun i => np_set ds i v))) (nm g) ds) flat_groups ds.
(** model_solver.py:154-188 [_update_problem_scales].  The array of decision variable scales is changed in place and is the very array that the constraints and
    objectives hold; since all of them are told again afterwards ([set_dec_var_scales]) this makes no difference to a call that succeeds. *)
Definition update_problem_scales (s : solver) : result solver :=
  let nm := s_names s in
  bind (mapM (var_scale (s_vs s) "states") (nm "states")) (fun states_dot_scales =>
  bind (mapM (var_scale (s_vs s) "con_outputs") (nm "con_outputs")) (fun con_output_scales =>
  let model_algebra_scales := states_dot_scales ++ con_output_scales ++ ones (List.length (nm "residuals")) in
  bind (lookup_err "model_algebra" (p_cons (s_prob s))) (fun c =>
  bind (set_con_scales c model_algebra_scales) (fun c' =>
  let p := set_cons (s_prob s) (dset "model_algebra" c' (p_cons (s_prob s))) in
  bind (write_scales nm (s_vs s) (p_scales p)) (fun ds =>
  bind (set_dec_var_scales p ds) (fun p' => Ok (with_prob s p'))))))).

Section Build.
(** the user's forward; what CasADi derives from it: jacobian and hessian values with their structures (derivatives are computed by CasADi: not modelled) *)
Variable forward : dict R -> dict R -> R -> result (dict R * dict R).
Variables (jac : list R -> list R) (hess : list R -> list R -> list R) (jac_structure hess_structure : list nat * list nat).
(** model_solver.py:62: the constraint function at mesh 0 with the parameters of the moment *)
Definition algebra_values (nm : string -> list string) (x : list R) : list R := match flat_implicit nm forward x 0 with Ok v => v | Raise _ => [] end.
(** model_solver.py:12-82 [ModelSolver.__init__]: the names of the model afterwards (they are changed even if the constructor raises) and the solver.  CasADi
    traces the python code once; here the tracing is an evaluation at one point (the models modelled raise independently of the values). *)
Definition make_solver (backend : string) (nm0 : string -> list string) (con_outputs : option (list string)) : (string -> list string) * result solver :=
  if negb (String.eqb backend "casadi") then (nm0, Raise AssertionError) else
  let nm := set_con_outputs nm0 (match con_outputs with None => [] | Some l => l end) in
  let n := num_implicit_var nm in
  (nm,
   if negb (nodupb (input_names nm)) then Raise TypeError else
   bind (flat_implicit nm forward (ones n) 0) (fun _ =>
   bind (make_con n (num_implicit_res nm) (algebra_values nm) jac hess (Some jac_structure) (Some hess_structure)) (fun c =>
   bind (add_constraints (make_prob n) "model_algebra" c) (fun p =>
   update_problem_scales {| s_names := nm; s_enum := input_names nm; s_prob := p; s_lb := repeat NegInf n; s_ub := repeat PosInf n; s_ncon := num_con p;
                            s_vs := map (fun g => (g, make_const_dict (nm g) 1)) flat_groups |})))).
End Build.

(** python's <= on numbers and infinities *)
Definition ebound_leb (a b : ebound) : bool :=
  match a, b with NegInf, _ => true | _, PosInf => true | Fin x, Fin y => if Rle_dec x y then true else false | _, _ => false end.
(** a tuple of two bounds, or a single number *)
Inductive bound_arg := BTuple (lb ub : ebound) | BNumber (v : R).
(** model_solver.py:111-133 [set_bounds] *)
Definition set_bounds (s : solver) (g n : string) (b : bound_arg) : result solver :=
  bind (get_var_idx s g n) (fun idx =>
  let '(lb, ub) := match b with BTuple lb ub => (lb, ub) | BNumber v => (Fin v, Fin v) end in
  if negb (ebound_leb lb ub) then Raise AssertionError
  else bind (np_set (s_lb s) idx lb) (fun l => bind (np_set (s_ub s) idx ub) (fun u => Ok (with_bounds s l u)))).
(** model_solver.py:135-138 [get_bounds] *)
Definition get_bounds (s : solver) (g n : string) : result (ebound * ebound) :=
  bind (get_var_idx s g n) (fun idx => match nth_error (s_lb s) idx, nth_error (s_ub s) idx with Some l, Some u => Ok (l, u) | _, _ => Raise IndexError end).

(** model_solver.py:190-209 [set_var_scale] *)
Definition scale_groups : list string := ["states"; "inputs"; "con_outputs"].
Definition set_var_scale (s : solver) (g n : string) (v : R) : result solver :=
  if negb (if Rlt_dec 0 v then true else false) then Raise AssertionError
  else if negb (mem g scale_groups) then Raise KeyError
  else bind (lookup_err g (s_vs s)) (fun d => if negb (dmem n d) then Raise KeyError
       else update_problem_scales (with_vs s (dset g (dset n v d) (s_vs s)))).

Section Obj.
(** how python prints the weight in the name of the objective *)
Variable show : R -> string.
Definition obj_name (g n : string) (w : R) : string := String.append g (String.append "." (String.append n (String.append ".weight=" (show w)))).
(** model_solver.py:220-262 [add_obj_from_var] *)
Definition add_obj_from_var (s : solver) (g n : string) (w : R) : result (solver * string) :=
  bind (get_var_idx s g n) (fun idx =>
  bind (make_obj (p_n (s_prob s)) (fun x => w * vget idx x) (fun _ => upd idx w (zeros (p_n (s_prob s)))) (fun _ => []) (Some ([], []))) (fun o =>
  bind (add_objective (s_prob s) (obj_name g n w) o) (fun p => Ok (with_prob s p, obj_name g n w)))).

(** a call on the solver; a call that raises leaves it as it was *)
Inductive mop := MBounds (g n : string) (b : bound_arg) | MScale (g n : string) (v : R) | MObj (g n : string) (w : R) | MDelObj (name : string).
Definition mkeep (s : solver) (r : result solver) : solver := match r with Ok s' => s' | Raise _ => s end.
Definition mstep (s : solver) (op : mop) : solver :=
  match op with
  | MBounds g n b => mkeep s (set_bounds s g n b)
  | MScale g n v => mkeep s (set_var_scale s g n v)
  | MObj g n w => mkeep s (fmap fst (add_obj_from_var s g n w))
  | MDelObj name => mkeep s (fmap (with_prob s) (delete_objective (s_prob s) name))
  end.
Definition mrun (s : solver) (ops : list mop) : solver := fold_left mstep ops s.
End Obj.

(** nlp.py:581-649 [solve] as inherited; model_solver.py:105-109: all constraint bounds are 0 *)
Definition ms_solve (ipopt : ipopt_problem -> list R -> list R * Z) (s : solver) (guess : list R) : result (solver * (list R * Z)) :=
  bind (solve ipopt (s_prob s) (s_lb s) (s_ub s) (repeat (Fin 0) (s_ncon s)) (repeat (Fin 0) (s_ncon s)) guess) (fun r => Ok (with_prob s (fst r), snd r)).

(** base.py:873-879: the functions [make_model_algebra_cons] returns *)
Definition implicit_functions : list string := ["constraints"; "jacobian"; "hessian"; "jacobian_structure"; "hessian_structure"].
(** model_solver.py:52-53, 64: the hessian of the constraint asks for "_hessian" *)
Definition algebra_hessian (hess : list R -> list R -> list R) (x lam : list R) : result (list R) := if mem "_hessian" implicit_functions then Ok (hess x lam) else Raise KeyError.
(** nlp.py:780-795 [hessian] of the solver: the model algebra comes first *)
Definition ms_hessian (hess : list R -> list R -> list R) (s : solver) (x lam : list R) (obj_factor : R) : result (list R) :=
  bind (algebra_hessian hess (vmul x (p_scales (s_prob s))) lam) (fun _ => snd (prob_hessian (s_prob s) x lam obj_factor)).
