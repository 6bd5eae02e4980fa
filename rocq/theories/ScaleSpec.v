(** What scale a variable should have. *)
From Verif Require Import Base RBase TreeModel UtilsModel OcpModel ScaleModel.

(** the last configured value for (group, name), 1 if there is none *)
Fixpoint scale_for (scs : list scale_config) (g n : string) : R :=
  match scs with
  | [] => 1
  | sc :: r =>
      if existsb (fun c => String.eqb (sc_g c) g && String.eqb (sc_n c) n)%bool r then scale_for r g n
      else if (String.eqb (sc_g sc) g && String.eqb (sc_n sc) n)%bool then sc_v sc else 1
  end.

(** the model has this variable: one of the four stage groups, or the mesh scale of a problem with a scaled mesh *)
Definition known_var (st inp con : list string) (fixed : option R) (g n : string) : Prop :=
  ((g = "states" \/ g = "states_dot") /\ In n st) \/ (g = "inputs" /\ In n inp) \/ (g = "con_outputs" /\ In n con) \/
  (g = "global" /\ fixed = None /\ n = "mesh_scale").
