(** Model of lumos/models/ml.py and lumos/models/aero/aero.py.  Arrays are lists (matrices: lists of rows) of reals. *)
From Verif Require Import Base RBase IoModel.
From Coq Require Import Decimal DecimalString.
From Coq Require Export Rtrigo_def.

(** M @ v; a shape mismatch raises ValueError *)
Definition matvec (m : list (list R)) (v : list R) : result (list R) :=
  mapM (fun row => if Nat.eqb (List.length row) (List.length v) then Ok (vdot row v) else Raise ValueError) m.
(** ml.py:6-7 [sqeuclidean_distance], one row *)
Definition sqdist (x y : list R) : R := rsum (map (fun d => d * d) (vsub x y)).
(** ml.py:10-11 [rbf_kernel], one row *)
Definition rbf (x y : list R) : R := exp (- sqdist x y).
(** ml.py:22-29 [gp]; the tiled input must have the width of the points (broadcasting of a single column is not modelled) *)
Definition gp (x : list R) (gp_points alpha : list (list R)) : result (list R) :=
  if forallb (fun p => Nat.eqb (List.length p) (List.length x)) gp_points then matvec alpha (map (fun p => rbf p x) gp_points) else Raise ValueError.
(** ml.py:32-39 [mlp] *)
Definition mlp (x : list R) (weights : list (list (list R))) : result (list R) := foldM (fun y w => fmap (map tanh) (matvec w y)) weights x.

(** aero.py:7-9 *)
Definition aero_inputs : list string := ["front_ride_height"; "rear_ride_height"; "yaw"].
Definition aero_outputs : list string := ["Cx"; "Cy"; "Cz"].
(** aero.py:53-55, 108-110: {n: coeff[idx] for idx, n in enumerate(names)}, then make_dict *)
Definition name_outputs (coeff : list R) : result (dict R) := bind (array_to_dict aero_outputs coeff) (make_dict aero_outputs).
(** aero.py:24-25 [ConstAero.forward]: the outputs are the parameters *)
Definition const_aero (params inputs : dict R) : result (dict R) := Ok params.
(** aero.py:49-57 [GPAero.forward] *)
Definition gp_aero (gp_points alpha : list (list R)) (inputs : dict R) : result (dict R) :=
  bind (make_vector aero_inputs inputs) (fun x => bind (gp x gp_points alpha) name_outputs).

(** aero.py:67-68 [_list_to_dict]: f"weights_layer_{i}" *)
Definition weights_prefix : string := "weights_layer".
Definition layer_name (i : nat) : string := String.append "weights_layer_" (NilZero.string_of_uint (Nat.to_uint i)).
Definition list_to_dict {W} (weights : list W) : dict W := dict_of_list (combine (map layer_name (seq 0 (List.length weights))) weights).
(** aero.py:71-74 [_dict_to_list] *)
Definition dict_to_list {W} (weights : dict W) : list W := map snd (filter (fun kv => String.prefix weights_prefix (fst kv)) weights).
(** aero.py:77-96 [get_default_params]: the default parameters: the air density, updated with the weights *)
Definition with_density {W} (density : W) (weights : list W) : dict W := dupdate [("air_density", density)] (list_to_dict weights).
(** aero.py:98-111 [MLPAero.forward] on the weights found in the parameters *)
Definition mlp_aero (params : dict (list (list R))) (inputs : dict R) : result (dict R) :=
  bind (make_vector aero_inputs inputs) (fun x => bind (mlp x (dict_to_list params)) name_outputs).
