(** Model of lumos/optimal_control/scaled_mesh_ocp.py and fixed_mesh_ocp.py: construction and the
    hand-written continuity and cyclic constraints with their derivatives.
    n-dimensional numpy arrays are nested lists; [ravel] is [concat]. *)
From Verif Require Import Base RBase TreeModel UtilsModel CollocModel MeshModel.
Notation mat := CollocModel.mat.

(** models/base.py:62-80: names of a state-space model; the same names serve states and states_dot *)
Definition model_names (states inputs outputs con_outputs residuals : list string) : dict (list string) :=
  [("states", states); ("states_dot", states); ("inputs", inputs); ("outputs", outputs);
   ("con_outputs", con_outputs); ("residuals", residuals)].
(** models/base.py:420 *)
Definition implicit_inputs : list string := ["states"; "inputs"; "states_dot"; "con_outputs"].

Record ocp := {
  oc_op : dvo;
  oc_tr : transcription;
  oc_mesh : list (list R);         (* _normalized_interval_mesh *)
  oc_fixed : option R;             (* FixedMeshOCP: Some _mesh_scale; ScaledMeshOCP: None *)
  oc_nres : nat;                   (* model.num_residuals *)
}.

(** scaled_mesh_ocp.py:76-112 (the parts that fix sizes and mesh) and fixed_mesh_ocp.py:24-35;
    global_var_names is ("mesh_scale",) or () (class attributes) *)
Definition make_ocp (roots : list R -> list R) (tname : string) (tns : option nat) (n : nat)
    (states inputs outputs con_outputs residuals : list string)
    (points : option (list R)) (fixed : option R) : result ocp :=
  if match fixed with Some s => negb (rltb 0 s) | None => false end then Raise AssertionError else
  bind (make_transcription roots tname tns) (fun t =>
  bind (make_dvo (model_names states inputs outputs con_outputs residuals) n (t_stages t) implicit_inputs
          (match fixed with Some _ => [] | None => ["mesh_scale"] end)) (fun op =>
  bind (make_mesh n t points) (fun m =>
  Ok {| oc_op := op; oc_tr := t; oc_mesh := m; oc_fixed := fixed; oc_nres := List.length residuals |}))).

Definition num_states (o : ocp) : nat := group_size (oc_op o) "states".
Definition num_intervals (o : ocp) : nat := nintervals (oc_op o).
(** utils.py:81-83 *)
Definition num_var_interval (o : ocp) : nat := (num_var_stage (oc_op o) * nspi (oc_op o))%nat.
(** scaled_mesh_ocp.py:592-598 *)
Definition num_continuity_cons (o : ocp) : nat := (num_states o * t_ncon (oc_tr o) * num_intervals o)%nat.

(** ["mesh_scale" in op._global_var_names] *)
Definition has_scale (o : ocp) : bool := existsb (String.eqb "mesh_scale") (gnames (oc_op o)).

(** scaled_mesh_ocp.py:546-559 [_get_mesh_scale]; fixed_mesh_ocp.py:44-46 *)
Definition get_mesh_scale (o : ocp) (x : list R) : result R :=
  match oc_fixed o with Some s => Ok s | None => get_var (oc_op o) x "global" "mesh_scale" 0 end.

(** physical interval lengths: [self._normalized_interval_length * self._get_mesh_scale(x)] *)
Definition phys_lengths (o : ocp) (s : R) : list R := map (fun l => l * s) (interval_lengths (oc_mesh o)).

(** scaled_mesh_ocp.py:1053-1067 [_continuity_constraints].
    [einsum("ijk,lj->ilk", X, A)] is A @ X_i for every interval i; [(Y.T * h).T] scales interval i by h_i
    (ValueError when the numbers of intervals differ) *)
Definition continuity_constraints (o : ocp) (x : list R) : result (list R) :=
  bind (get_mesh_scale o x) (fun s =>
  bind (get_interval_tensor (oc_op o) x "states") (fun X =>
  bind (get_interval_tensor (oc_op o) x "states_dot") (fun Y =>
  let h := phys_lengths o s in
  let d := num_states o in
  if negb (Nat.eqb (List.length (rows Y)) (List.length h)) then Raise ValueError else
  Ok (concat (map (@concat R)
    (map2 (fun Xi Yi => msub (mmul (t_A (oc_tr o)) Xi d) (mmul (t_B (oc_tr o)) Yi d))
          (rows X) (map2 mscale (rows Y) h))))))).

Definition mopp (M : mat) : mat := map (map Ropp) M.

(** scaled_mesh_ocp.py:1069-1116 [_continuity_jacobian]; np.stack of an empty list raises ValueError *)
Definition continuity_jacobian (o : ocp) (x : list R) : result (list R) :=
  bind (get_mesh_scale o x) (fun s =>
  let h := phys_lengths o s in
  let d := num_states o in
  let n := num_intervals o in
  let A := t_A (oc_tr o) in let B := t_B (oc_tr o) in
  if (Nat.eqb n 0 || Nat.eqb d 0)%bool then Raise ValueError else
  if negb (Nat.eqb (List.length h) n) then Raise ValueError else
  let Av := repeat A n in
  let Bv := map2 mscale (repeat (mopp B) n) h in
  let rep := map (map (fun v : R => repeat v d)) in
  let rav := fun T => concat (map (fun M => concat (map (@concat R) M)) T) in
  let vals := rav (map rep Av) ++ rav (map rep Bv) in
  if has_scale o then
    bind (get_interval_tensor (oc_op o) x "states_dot") (fun Y =>
    Ok (vals ++ concat (map (@concat R)
          (map2 (fun Yi l => mscale (mmul (mopp B) Yi d) l) (rows Y) (interval_lengths (oc_mesh o))))))
  else Ok vals).

(** utils.py:322-338 [stack_and_increment] for higher-dimensional arrays *)
Definition stack0 (x : list (list nat)) (k inc : nat) : list (list (list nat)) :=
  map (fun r => map (map (fun v => v + r * inc)%nat) x) (seq 0 k).
Definition stack_last (x : list (list (list nat))) (k inc : nat) : list (list (list (list nat))) :=
  map (map (map (fun v => map (fun r => v + r * inc)%nat (seq 0 k)))) x.
Definition ravel4 {A} (x : list (list (list (list A)))) : list A := concat (concat (concat x)).
Definition ravel3 {A} (x : list (list (list A))) : list A := concat (concat x).

Definition first_of (l : list string) : result string := match l with a :: _ => Ok a | [] => Raise IndexError end.

(** scaled_mesh_ocp.py:1118-1186 [_continuity_jacobianstructure] *)
Definition continuity_jacobianstructure (o : ocp) : result (list nat * list nat) :=
  let op := oc_op o in
  let d := num_states o in let m := nspi op in let n := num_intervals o in
  bind (first_of (gnames_of op "states")) (fun fs =>
  bind (index_at op "states" fs 0) (fun i0 =>
  bind (first_of (gnames_of op "states_dot")) (fun fd =>
  bind (index_at op "states_dot" fd 0) (fun j0 =>
  let off := (Z.of_nat j0 - Z.of_nat i0)%Z in
  let A_rows := map (fun l => repeat (l * d)%nat m) (seq 0 (m - 1)) in
  let A_cols := repeat (map (fun j => i0 + j * num_var_stage op)%nat (seq 0 m)) (m - 1) in
  let A_rows := stack_last (stack0 A_rows n ((m - 1) * d)) d 1 in
  let A_cols := stack_last (stack0 A_cols n (num_var_interval o - num_var_stage op)) d 1 in
  let B_cols := map (map (map (map (fun v => Z.to_nat (Z.of_nat v + off))))) A_cols in
  let rs := ravel4 A_rows ++ ravel4 A_rows in
  let cs := ravel4 A_cols ++ ravel4 B_cols in
  if has_scale o then
    bind (index_at op "global" "mesh_scale" 0) (fun im =>
    let mrows := map (map (fun M => nth 0 M [])) A_rows in
    Ok (rs ++ ravel3 mrows, cs ++ repeat im (List.length (ravel3 mrows))))
  else Ok (rs, cs))))).

(** transpose of a matrix with [nc] columns *)
Definition mtrans (M : mat) (nc : nat) : mat := map (fun j => map (vget j) M) (seq 0 nc).

(** scaled_mesh_ocp.py:1188-1215 [_continuity_hessian]:
    [einsum("ijk,jl->ilk", L, -B)] is (-B)^T @ L_i for every interval *)
Definition continuity_hessian (o : ocp) (lagrange : list R) : result (list R) :=
  let d := num_states o in let m := nspi (oc_op o) in let n := num_intervals o in
  if negb (Nat.eqb (List.length lagrange) (n * (m - 1) * d)) then Raise ValueError else
  let L := map (chunks (m - 1) d) (chunks n ((m - 1) * d) lagrange) in
  if negb (Nat.eqb (List.length (interval_lengths (oc_mesh o))) n) then Raise ValueError else
  let L := map2 mscale L (interval_lengths (oc_mesh o)) in
  Ok (ravel3 (map (fun Li => mmul (mtrans (mopp (t_B (oc_tr o))) m) Li d) L)).

(** scaled_mesh_ocp.py:1215-1236 [_continuity_hessianstructure] *)
Definition continuity_hessianstructure (o : ocp) : result (list nat * list nat) :=
  let op := oc_op o in let m := nspi op in let n := num_intervals o in
  bind (group_indices_at op "states_dot" 0) (fun base =>
  bind (index_at op "global" "mesh_scale" 0) (fun im =>
  let rows1 := map (fun j => map (fun v => v + j * num_var_stage op)%nat base) (seq 0 m) in
  let rows2 := map (fun i => map (map (fun v => v + i * (num_var_interval o - num_var_stage op))%nat) rows1) (seq 0 n) in
  Ok (ravel3 rows2, repeat im (List.length (ravel3 rows2))))).
