(** Model of the cyclic constraints: lumos/optimal_control/scaled_mesh_ocp.py:39-45, 172-189, 1015-1043. *)
From Verif Require Import Base RBase TreeModel UtilsModel CollocModel MeshModel OcpModel.

Fixpoint remove1 (a : string) (l : list string) : list string :=
  match l with [] => [] | b :: r => if String.eqb a b then r else b :: remove1 a r end.
(** scaled_mesh_ocp.py:182-189: remove the non cyclic ones, one by one *)
Fixpoint remove_all (ncv cv : list string) : result (list string) :=
  match ncv with
  | [] => Ok cv
  | a :: r => if existsb (String.eqb a) cv then remove_all r (remove1 a cv) else Raise ValueError
  end.
(** scaled_mesh_ocp.py:172-189 [_build_cyclic_vars]; [_build_full_name] (39-40) is [svname] *)
Definition build_cyclic_vars (o : ocp) (non_cyclic : list string) : result (list string) :=
  remove_all non_cyclic (flat_map (fun g => map (svname g) (gnames_of (oc_op o) g)) ["states"; "inputs"]).

(** scaled_mesh_ocp.py:43-44 and the unpacking at 1022 *)
Definition split_full_name (s : string) : result (string * string) :=
  match Base.split dot s with [g; n] => Ok (g, n) | _ => Raise ValueError end.

(** scaled_mesh_ocp.py:1015-1026 [_get_cyclic_indices]; np.hstack of an empty list raises ValueError *)
Definition cyclic_indices (o : ocp) (cv : list string) : result (list nat * list nat) :=
  bind (mapM (fun s => bind (split_full_name s) (fun gn =>
                bind (index_at (oc_op o) (fst gn) (snd gn) 0) (fun a =>
                fmap (fun b => (a, b)) (index_at (oc_op o) (fst gn) (snd gn) (-1))))) cv)
  (fun l => match l with [] => Raise ValueError | _ => Ok (map fst l, map snd l) end).

(** scaled_mesh_ocp.py:1028-1030 *)
Definition cyclic_constraint (o : ocp) (cv : list string) (x : list R) : result (list R) :=
  bind (cyclic_indices o cv) (fun idx =>
  bind (mapM (array_get x) (fst idx)) (fun a => bind (mapM (array_get x) (snd idx)) (fun b => Ok (vsub a b)))).
(** scaled_mesh_ocp.py:1032-1034 (constant, for every x) *)
Definition cyclic_jacobian (o : ocp) (cv : list string) (x : list R) : result (list R) :=
  bind (cyclic_indices o cv) (fun idx => Ok (map (fun _ => 1) (fst idx) ++ map (fun _ => - (1)) (snd idx))).
(** scaled_mesh_ocp.py:1036-1042 *)
Definition cyclic_jacobianstructure (o : ocp) (cv : list string) : result (list nat * list nat) :=
  bind (cyclic_indices o cv) (fun idx =>
  let k := List.length (fst idx) in Ok (seq 0 k ++ seq 0 k, fst idx ++ snd idx)).
