(** Vocabulary for statements about optimal control problems: reading a variable by name, the mesh scale. *)
From Verif Require Import Base RBase TreeModel UtilsModel CollocModel CollocProps MeshModel OcpModel.

(** A problem built by the constructor ScaledMeshOCP (fixed = None) or FixedMeshOCP (fixed = Some mesh_scale), on a model
    with the given variable names, with at least one interval and one state, assuming the root finder is right. *)
Record built (roots : list R -> list R) (tname : string) (tns : option nat) (n : nat)
    (states inputs con_outputs : list string) (points : option (list R)) (fixed : option R) (o : ocp) : Prop := {
  b_oracle : oracle_ok roots tns;
  b_make : exists outputs residuals, make_ocp roots tname tns n states inputs outputs con_outputs residuals points fixed = Ok o;
  b_n : (1 <= n)%nat;
  b_states : states <> [];
}.

(** the value of variable [name] of [group] at stage [s] is [v], read through the public DecVarOperator.get_var *)
Definition value_at (o : ocp) (x : list R) (group name : string) (s : nat) (v : R) : Prop :=
  get_var (oc_op o) x group name (Z.of_nat s) = Ok v.

(** the scale of the mesh: the mesh_scale variable, or the constant of a fixed-mesh problem *)
Definition scale_is (o : ocp) (x : list R) (s : R) : Prop :=
  match oc_fixed o with
  | Some c => s = c
  | None => get_var (oc_op o) x "global" "mesh_scale" 0 = Ok s
  end.
(** stages per interval *)
Definition spi (o : ocp) : nat := t_stages (oc_tr o).
(** normalized length of interval i (see C23: difference of consecutive interval points) *)
Definition norm_len (o : ocp) (i : nat) : R := nth i (interval_lengths (oc_mesh o)) 0.
Definition entry (l j : nat) (M : list (list R)) : R := nth j (nth l M []) 0.
