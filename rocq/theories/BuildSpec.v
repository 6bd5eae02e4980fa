(** What an optimal control problem means, in the user's terms: trajectories of the model on a mesh, and their cost. *)
From Verif Require Import Base RBase TreeModel UtilsModel IoModel CollocModel MeshModel OcpModel OcpSpec NlpModel ObjSpec BoundModel BoundSpec ScaleModel ScaleSpec CyclicSpec AlgSpec ConvModel ConvSpec BuildModel.

(** ** What the history of calls asked for *)
Section Asked.
Context {P : Type}.
(** the last value given by a call, else the initial one *)
Definition latest {A} (f : scall P -> option A) (init : A) (cs : list (scall P)) : A :=
  fold_left (fun acc c => match f c with Some v => v | None => acc end) cs init.
Definition scales_asked (init : list scale_config) := latest (fun c => match c with SScales scs => Some scs | _ => None end) init.
Definition params_asked (init : P) := latest (fun c => match c with SParams p => Some p | _ => None end) init.
Definition mesh_scale_asked (init : R) := latest (fun c => match c with SMeshScale s => Some s | _ => None end) init.
Definition bounds_asked (init : list bound_config) (cs : list (scall P)) : list setting :=
  map of_bound (init ++ flat_map (fun c => match c with SBounds bs => bs | _ => [] end) cs).
Definition bcs_asked (init : list bc_config) (cs : list (scall P)) : list setting :=
  map of_bc (init ++ flat_map (fun c => match c with SBCs l => l | _ => [] end) cs).
(** the mesh is not replaced after construction (see the finding C51_remesh_refuted), and a fixed mesh scale stays positive *)
Definition plain (c : scall P) : Prop := match c with SMesh _ => False | SMeshScale s => 0 < s | _ => True end.
End Asked.

(** normalized position of point [j] of an interval: the collocation points, or the two ends *)
Definition unit_point (t : transcription) (j : nat) : R := match t_points t with [] => nth j [0; 1] 0 | q => nth j q 0 end.

(** ** Trajectories *)
Section Traj.
Variables (o : ocp) (st inp con res : list string).      (* [o] only serves to address the variables of a vector by group, name and stage *)
Variable fwd : dict R -> dict R -> R -> result (dict R * dict R).   (* the model with its parameters *)
Variables (t : transcription) (n : nat) (pts : list R).     (* transcription, number of intervals, normalized interval points *)
Variable fixed : option R.                                (* the mesh scale of a fixed-mesh problem *)
Variable pen : option (dict R).                           (* weights of a penalty on the inputs *)
Variable cyclic : option (list (string * string)).
Variables (bounds bcs : list setting).

Definition val (x : list R) (g nm : string) (s : nat) (v : R) : Prop := value_at o x g nm s v.
(** the length of the whole mesh *)
Definition mesh_length (x : list R) (s : R) : Prop := match fixed with Some c => s = c | None => val x "global" "mesh_scale" 0 s end.
(** [d] holds the values of the variables of a group at a stage *)
Definition holds (x : list R) (g : string) (names : list string) (s : nat) (d : dict R) : Prop :=
  keys d = names /\ forall nm v, dget nm d = Some v -> val x g nm s v.
(** stage [s] is point [j] of interval [i] *)
Definition stage_of (i j : nat) : nat := (i * (t_stages t - 1) + j)%nat.
Definition interval_length (i : nat) : R := nth (S i) pts 0 - nth i pts 0.

Record trajectory (x : list R) : Prop := {
  (* one value for every variable *)
  tj_len : List.length x = num_dec (oc_op o);
  (* at every stage the model is satisfied: its derivatives and constrained outputs are the variables, its residuals vanish *)
  tj_model : forall i j, (i < n)%nat -> (j < t_stages t)%nat -> let s := stage_of i j in
    exists L ds di sd out, mesh_length x L /\ holds x "states" st s ds /\ holds x "inputs" inp s di /\
      fwd ds di ((nth i pts 0 + unit_point t j * interval_length i) * L) = Ok (sd, out) /\
      (forall nm, In nm st -> exists v, dget nm sd = Some v /\ val x "states_dot" nm s v) /\
      (forall nm, In nm con -> exists v, dget nm out = Some v /\ val x "con_outputs" nm s v) /\
      (forall nm, In nm res -> dget nm out = Some 0);
  (* in every interval the states obey the quadrature rule of the transcription *)
  tj_continuity : forall i k nm, (i < n)%nat -> (k < t_stages t - 1)%nat -> In nm st ->
    exists L (X D : nat -> R), mesh_length x L /\
      (forall j, (j < t_stages t)%nat -> val x "states" nm (stage_of i j) (X j) /\ val x "states_dot" nm (stage_of i j) (D j)) /\
      rsum (map (fun j => entry k j (t_A t) * X j) (seq 0 (t_stages t))) = interval_length i * L * rsum (map (fun j => entry k j (t_B t) * D j) (seq 0 (t_stages t)));
  (* cyclic variables end where they started *)
  tj_cyclic : forall pairs g nm, cyclic = Some pairs -> In (g, nm) pairs -> exists v, val x g nm 0 v /\ val x g nm (n * (t_stages t - 1)) v;
  (* all variables are within the bounds *)
  tj_bounds : forall g nm s, known_var st inp con fixed g nm -> (s <= n * (t_stages t - 1))%nat ->
    exists v, val x g nm s v /\ ele (fst (expected (oc_op o) bounds bcs g nm s)) v /\ ege (snd (expected (oc_op o) bounds bcs g nm s)) v }.

(** the time: the mesh length, or the time that passes on a fixed mesh *)
Definition time_spent (x : list R) (c : R) : Prop :=
  match fixed with
  | None => mesh_length x c
  | Some _ => exists t0 t1, val x "states" "time" 0 t0 /\ val x "states" "time" (n * (t_stages t - 1)) t1 /\ c = t1 - t0
  end.
(** the cost: time, plus the mean over the stages of the weighted squares of the inputs if there is a penalty; [v s k] is the value of the
    k-th input at stage [s] *)
Definition cost (x : list R) (c : R) : Prop :=
  exists tm v, time_spent x tm /\ (forall s k, (s <= n * (t_stages t - 1))%nat -> (k < List.length inp)%nat -> val x "inputs" (nth k inp "") s (v s k)) /\
    c = tm + match pen with None => 0 | Some w => penalty w inp (n * (t_stages t - 1) + 1) v end.
Definition best (x : list R) : Prop := trajectory x /\ exists c, cost x c /\ forall y d, trajectory y -> cost y d -> c <= d.

(** [x] is the vector of physical values of the scaled vector [y] *)
Definition physical (scs : list scale_config) (y x : list R) : Prop :=
  List.length x = List.length y /\ forall g nm s v, known_var st inp con fixed g nm -> val y g nm s v -> val x g nm s (v * scale_for scs g nm).
End Traj.

(** ** What is assumed of the model *)
(** names: distinct in every group, constrained outputs and residuals are outputs, no dots (the cyclic constraints address variables as "group.name");
    [forward] returns a value for everything declared, for all parameters; the derivative functions have the declared shapes *)
Record model_ok {P} (M : smodel P) (con : list string) : Prop := {
  mo_names : names_ok (names_of M con);
  mo_dots : forall nm, In nm (m_states M) \/ In nm (m_inputs M) -> no_char dot nm = true;
  mo_forward : forall p mesh, forward_ok (names_of M con) (m_forward M p) mesh;
  mo_jac : forall w m p, List.length w = num_implicit_var (names_of M con) -> List.length (m_jac M con w m p) = List.length (fst (m_js M con));
  mo_hess : forall w l m p, List.length w = num_implicit_var (names_of M con) -> List.length l = num_implicit_res (names_of M con) -> List.length (m_hess M con w l m p) = List.length (fst (m_hs M con));
  mo_js : List.length (fst (m_js M con)) = List.length (snd (m_js M con)) /\ Forall (fun r => r < num_implicit_res (names_of M con))%nat (fst (m_js M con)) /\ Forall (fun c => c < num_implicit_var (names_of M con))%nat (snd (m_js M con));
  mo_hs : List.length (fst (m_hs M con)) = List.length (snd (m_hs M con)) /\ Forall (fun r => r < num_implicit_var (names_of M con))%nat (fst (m_hs M con)) /\ Forall (fun c => c < num_implicit_var (names_of M con))%nat (snd (m_hs M con)) }.

(** ** Which problems and calls are in order *)
Definition le_bound (l u : ebound) : Prop := match l, u with NegInf, _ => True | _, PosInf => True | Fin a, Fin b => a <= b | _, _ => False end.
(** an existing variable, a stage in range (negative ones count from the end), lower bounds below upper bounds; arrays hold one value per stage *)
Definition setting_ok (nst : nat) (st inp con : list string) (fixed : option R) (c : setting) : Prop :=
  known_var st inp con fixed (k_g c) (k_n c) /\
  (k_g c <> "global" -> match k_stage c with Some z => (- Z.of_nat nst <= z <= Z.of_nat nst - 1)%Z | None => True end) /\
  match k_v c with
  | BSc l u => le_bound l u
  | BAr l u => List.length l = List.length u /\ (forall i, (i < List.length l)%nat -> le_bound (nth i l NegInf) (nth i u PosInf)) /\
      List.length l = match k_stage c with Some _ => 1%nat | None => if String.eqb (k_g c) "global" then 1%nat else nst end
  end.
Definition scale_ok (st inp con : list string) (fixed : option R) (c : scale_config) : Prop := known_var st inp con fixed (sc_g c) (sc_n c).
Definition call_ok {P} (nst : nat) (st inp con : list string) (fixed : option R) (c : scall P) : Prop :=
  match c with
  | SBounds bs => forall b, In b bs -> setting_ok nst st inp con fixed (of_bound b)
  | SBCs l => forall b, In b l -> setting_ok nst st inp con fixed (of_bc b)
  | SScales scs => forall b, In b scs -> scale_ok st inp con fixed b
  | SParams _ => True
  | SMeshScale s => fixed <> None /\ 0 < s
  | SMesh _ => False
  end.
Record config_ok {P} (M : smodel P) (cfg : sim_config) (fixed : option R) (t : transcription) : Prop := {
  ck_n : (1 <= cf_n cfg)%nat;
  ck_states : m_states M <> [];
  ck_model : model_ok M (cf_con cfg);
  ck_points : forall q, cf_points cfg = Some q -> List.length q = (cf_n cfg + 1)%nat /\ Rabs (nth 0 q 0) < 1 / 1000000 /\ Rabs (nth (cf_n cfg) q 0 - 1) < 1 / 1000000 /\
    forall i j, (i < j)%nat -> (j <= cf_n cfg)%nat -> nth i q 0 < nth j q 0;
  ck_fixed : forall s, fixed = Some s -> 0 < s /\ In "time" (m_states M);
  ck_pen : forall w, cf_pen cfg = Some w -> NoDup (keys w) /\ incl (keys w) (m_inputs M);
  ck_cyclic : cf_cyclic cfg = true -> NoDup (cf_noncyclic cfg) /\ cyclic_pairs (m_states M) (m_inputs M) (cf_noncyclic cfg) <> [] /\
    forall e, In e (cf_noncyclic cfg) -> exists g nm, e = full_name (g, nm) /\ ((g = "states" /\ In nm (m_states M)) \/ (g = "inputs" /\ In nm (m_inputs M)));
  ck_bounds : forall b, In b (cf_bounds cfg) -> setting_ok (cf_n cfg * (t_stages t - 1) + 1) (m_states M) (m_inputs M) (cf_con cfg) fixed (of_bound b);
  ck_bcs : forall b, In b (cf_bcs cfg) -> setting_ok (cf_n cfg * (t_stages t - 1) + 1) (m_states M) (m_inputs M) (cf_con cfg) fixed (of_bc b);
  ck_scales : forall b, In b (cf_scales cfg) -> scale_ok (m_states M) (m_inputs M) (cf_con cfg) fixed b }.

(** the derivative functions of the model algebra are exact: jacobian, and hessian of every combination of the residuals on the upper triangle (the
    part that IPOPT is given) *)
Definition model_derivatives {P} (M : smodel P) (con : list string) : Prop := forall p mesh,
  let nin := num_implicit_var (names_of M con) in let res := residual (names_of M con) (m_forward M p) mesh in
  is_jacobian nin (num_implicit_res (names_of M con)) res (fun w => tri (fst (m_js M con)) (snd (m_js M con)) (m_jac M con w mesh p)) /\
  forall l, List.length l = num_implicit_res (names_of M con) -> exists g, is_gradient nin (fun w => vdot l (res w)) g /\
    forall w i j, List.length w = nin -> (i < nin)%nat -> (j < nin)%nat -> (i <= j)%nat ->
      pderiv (fun v => g v i) w j (tri (fst (m_hs M con)) (snd (m_hs M con)) (m_hess M con w l mesh p) i j).
(** the model does not depend on the position on the mesh *)
Definition position_free {P} (M : smodel P) : Prop := forall p ds di m m', m_forward M p ds di m = m_forward M p ds di m'.
