(** Vocabulary for the condensed problem: positions of the derivative variables, what a model algebra of an explicit model is. *)
From Verif Require Import Base RBase UtilsModel CollocModel MeshModel NlpModel OcpModel.

(** [j] is the position in the decision vector of the derivative of the c-th state at stage k *)
Definition dot_pos (o : ocp) (k c j : nat) : Prop :=
  exists nm, nth_error (gnames_of (oc_op o) "states_dot") c = Some nm /\ index_at (oc_op o) "states_dot" nm (Z.of_nat k) = Ok j.

(** The constraint object [alg] consists, for every stage, of [nimp] rows; the first ones are the state equations f(...) - states_dot, one for each
    state, and f and the other rows do not depend on states_dot: replacing one derivative variable by v changes one row, by the difference. *)
Record explicit_algebra (o : ocp) (alg : bcon) (nimp : nat) : Prop := {
  ea_nin : c_nin alg = num_dec (oc_op o);
  ea_ncon : c_ncon alg = (num_stages (oc_op o) * nimp)%nat;
  ea_d : (num_states o <= nimp)%nat;
  ea_len : forall x, List.length x = num_dec (oc_op o) -> List.length (con_constraints alg x) = (num_stages (oc_op o) * nimp)%nat;
  ea_dot : forall x k c j v, List.length x = num_dec (oc_op o) -> (k < num_stages (oc_op o))%nat -> dot_pos o k c j ->
    vget (k * nimp + c) (con_constraints alg (upd j v x)) = vget (k * nimp + c) (con_constraints alg x) + vget j x - v;
  ea_rest : forall x k c j v r, List.length x = num_dec (oc_op o) -> (k < num_stages (oc_op o))%nat -> dot_pos o k c j -> r <> (k * nimp + c)%nat ->
    vget r (con_constraints alg (upd j v x)) = vget r (con_constraints alg x);
}.

(** its declared derivatives are the derivatives *)
Record exact_algebra (o : ocp) (alg : bcon) : Prop := {
  xa_jac : is_jacobian (num_dec (oc_op o)) (c_ncon alg) (con_constraints alg) (fun x => tri (c_jr alg) (c_jc alg) (con_jacobian alg x));
  xa_hess : forall lam, List.length lam = c_ncon alg ->
    is_hessian (num_dec (oc_op o)) (fun x => vdot lam (con_constraints alg x)) (fun x => tri (c_hr alg) (c_hc alg) (con_hessian alg x lam));
  xa_hlen : List.length (c_hr alg) = List.length (c_hc alg);
  xa_vlen : forall x lam, List.length x = num_dec (oc_op o) -> List.length lam = c_ncon alg -> List.length (con_hessian alg x lam) = List.length (c_hr alg);
}.

(** the model's batched forward, applied to the state and input arrays of x (one row per stage) at the physical mesh, gives the f of the state equations *)
Definition forward_agrees (o : ocp) (alg : bcon) (nimp : nat) (fwd : list (list R) -> list (list R) -> list R -> list (list R)) (fmesh : list R) : Prop :=
  forall x v X U s, List.length x = num_dec (oc_op o) -> unflatten_var (oc_op o) x = Ok v -> dget "states" v = Some (FArr X) -> dget "inputs" v = Some (FArr U) ->
    get_mesh_scale o x = Ok s ->
    let Y := fwd X U (map (fun m => m * s) fmesh) in
    List.length Y = num_stages (oc_op o) /\ Forall (fun r => List.length r = num_states o) Y /\
    forall k c j, (k < num_stages (oc_op o))%nat -> dot_pos o k c j -> vget c (nth k Y []) = vget (k * nimp + c) (con_constraints alg x) + vget j x.

(** the algebra does not depend on the mesh scale variable (the last decision variable) *)
Definition mesh_free (o : ocp) (alg : bcon) : Prop :=
  forall x v, List.length x = num_dec (oc_op o) -> con_constraints alg (upd (num_dec (oc_op o) - 1) v x) = con_constraints alg x.

(** x and y agree except for the derivative variables *)
Definition same_but_dots (o : ocp) (x y : list R) : Prop :=
  List.length y = List.length x /\ forall j, (forall k c, (k < num_stages (oc_op o))%nat -> ~ dot_pos o k c j) -> vget j y = vget j x.
