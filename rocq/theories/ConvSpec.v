(** Specification vocabulary for constraints convolved over the stages. *)
From Verif Require Import Base RBase UtilsModel NlpModel NlpProofs ConvModel.

(** the window of stage [k]: the variables of that stage (C08/C11: they are contiguous) *)
Definition stage_window (op : dvo) (k : nat) (x : list R) : list R := firstn (num_var_stage op) (skipn (k * num_var_stage op) x).
(** the unit problem is consistent: shapes, and its derivative functions give the derivatives, for every mesh point and parameter value *)
Definition unit_shapes {P} (u : unitp P) : Prop :=
  (forall x m p, List.length x = u_nin u -> List.length (u_f u x m p) = u_ncon u) /\
  (forall x m p, List.length x = u_nin u -> List.length (u_j u x m p) = List.length (fst (u_js u))) /\
  (forall x l m p, List.length x = u_nin u -> List.length l = u_ncon u -> List.length (u_h u x l m p) = List.length (fst (u_hs u))) /\
  List.length (fst (u_js u)) = List.length (snd (u_js u)) /\ List.length (fst (u_hs u)) = List.length (snd (u_hs u)) /\
  Forall (fun r => r < u_ncon u)%nat (fst (u_js u)) /\ Forall (fun c => c < u_nin u)%nat (snd (u_js u)) /\
  Forall (fun r => r < u_nin u)%nat (fst (u_hs u)) /\ Forall (fun c => c < u_nin u)%nat (snd (u_hs u)).
Definition unit_jacobian {P} (u : unitp P) : Prop := forall m p, is_jacobian (u_nin u) (u_ncon u) (fun x => u_f u x m p) (fun x => tri (fst (u_js u)) (snd (u_js u)) (u_j u x m p)).
Definition unit_hessian {P} (T : nat -> nat -> Prop) (u : unitp P) : Prop := forall l m p, List.length l = u_ncon u ->
  is_hessian_on T (u_nin u) (fun x => vdot l (u_f u x m p)) (fun x => tri (fst (u_hs u)) (snd (u_hs u)) (u_h u x l m p)).
(** the part of the hessian that is wanted: everything or one triangle; the diagonal may be shifted *)
Definition shift_ok (T : nat -> nat -> Prop) : Prop := forall a b k, T (a + k)%nat (b + k)%nat -> T a b.
(** the mesh points do not move with the decision variables, or the unit problem does not depend on them *)
Definition mesh_free {P} (u : unitp P) (scale_fn : list R -> R) : Prop := (forall x y, scale_fn x = scale_fn y) \/
  (forall x m m' p, u_f u x m p = u_f u x m' p).
