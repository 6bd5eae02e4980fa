(** Model, in double precision, of what the solver's callbacks compute: the scaled constraints,
    jacobians, hessians and objectives of lumos/optimal_control/nlp.py (106-176, 373-438) and the
    continuity constraints of lumos/optimal_control/scaled_mesh_ocp.py (1053-1067).
    Rounding as in FloatModel (no overflow, no NaN). The functions of the model itself are arbitrary:
    they take and return doubles. *)
From Verif Require Import Base RBase MeshModel FloatModel.
From Coq Require Import Permutation.

(** nlp.py:106-110 [constraints] *)
Definition fl_constraints (f : list R -> list R) (s cs : list R) (x : list R) : list R :=
  map2 fdiv (f (map2 fmul x s)) cs.

(** nlp.py:158-172 [update_jac_scales]: con_scales[rows] / input_scales[cols] (all indices valid, C13) *)
Definition fl_jac_scales (s cs : list R) (rows cols : list nat) : list R :=
  map2 (fun r c => fdiv (nth r cs 0) (nth c s 0)) rows cols.

(** nlp.py:112-115 [jacobian] *)
Definition fl_jacobian (J : list R -> list R) (s js : list R) (x : list R) : list R :=
  map2 fdiv (J (map2 fmul x s)) js.

(** nlp.py:174-176 [update_hess_scales], 389-391 for objectives: 1 / (input_scales[rows] * input_scales[cols]) *)
Definition fl_hess_scales (s : list R) (rows cols : list nat) : list R :=
  map2 (fun r c => fdiv 1 (fmul (nth r s 0) (nth c s 0))) rows cols.

(** nlp.py:117-126 [hessian] *)
Definition fl_hessian (H : list R -> list R -> list R) (s cs hs : list R) (x lam : list R) : list R :=
  map2 fdiv (H (map2 fmul x s) (map2 fdiv lam cs)) hs.

(** nlp.py:393-402 [BaseObjective.objective] *)
Definition fl_objective (f : list R -> R) (s : list R) (x : list R) : R := f (map2 fmul x s).
(** nlp.py:404-413 [BaseObjective.gradient] *)
Definition fl_gradient (g : list R -> list R) (s : list R) (x : list R) : list R :=
  map2 fmul (g (map2 fmul x s)) s.

(** The object's scales and their setters: nlp.py:98-104 (defaults), 149-156 (set_input_scales,
    set_con_scales). *)
Record fscales := { fs_in : list R; fs_con : list R; fs_jac : list R; fs_hess : list R }.
Definition fs_new (nin ncon : nat) (jr jc hr hc : list nat) : fscales :=
  {| fs_in := repeat 1 nin; fs_con := repeat 1 ncon;
     fs_jac := fl_jac_scales (repeat 1 nin) (repeat 1 ncon) jr jc;
     fs_hess := fl_hess_scales (repeat 1 nin) hr hc |}.
(** nlp.py:149-152 [set_input_scales] *)
Definition fs_set_input (jr jc hr hc : list nat) (o : fscales) (s : list R) : fscales :=
  {| fs_in := s; fs_con := fs_con o; fs_jac := fl_jac_scales s (fs_con o) jr jc; fs_hess := fl_hess_scales s hr hc |}.
(** nlp.py:154-156 [set_con_scales]: only the jacobian scales are updated *)
Definition fs_set_con (jr jc : list nat) (o : fscales) (c : list R) : fscales :=
  {| fs_in := fs_in o; fs_con := c; fs_jac := fl_jac_scales (fs_in o) c jr jc; fs_hess := fs_hess o |}.

(** A sum of products as numpy, BLAS or XLA may compute it: in any order and with any grouping, with
    or without fused multiply-add. [dots l v]: the value v can result for the sum over l of a * b. *)
Inductive dots : list (R * R) -> R -> Prop :=
| dots_nil : dots [] 0
| dots_one : forall a b, dots [(a, b)] (fmul a b)
| dots_add : forall l1 l2 v1 v2, dots l1 v1 -> dots l2 v2 -> dots (l1 ++ l2) (fadd v1 v2)
| dots_fma : forall a b l v, dots l v -> dots ((a, b) :: l) (fl (v + a * b))
| dots_perm : forall l l' v, Permutation l l' -> dots l v -> dots l' v.

(** scaled_mesh_ocp.py:1053-1067 [_continuity_constraints], one entry: [Arow], [Brow] the row of the
    transcription matrices, [xs], [xd] one state and its derivative at the stages of one interval,
    [len] the normalized interval length, [scale] the mesh scale.
    [einsum(states, A) - einsum((states_dot.T * (len * scale)).T, B)] *)
Definition fl_continuity (Arow Brow xs xd : list R) (len scale : R) (r : R) : Prop :=
  exists p q, dots (combine xs Arow) p /\
              dots (combine (map (fun v => fmul v (fmul len scale)) xd) Brow) q /\ r = fsub p q.
