(** Vocabulary for condensed problems: the derivative variables and the settings that concern them. *)
From Verif Require Import Base RBase TreeModel UtilsModel IoModel CollocModel MeshModel OcpModel OcpSpec NlpModel ObjSpec BoundModel BoundSpec ScaleModel ScaleSpec CyclicSpec AlgModel AlgSpec ConvModel ConvSpec BuildModel BuildSpec.

(** the setting addresses a variable "states_dot.…" *)
Definition on_dots (c : setting) : bool := String.prefix "states_dot." (String.append (k_g c) (String.append "." (k_n c))).
Definition without_dots (l : list setting) : list setting := filter (fun c => negb (on_dots c)) l.
(** the derivative variables are set to zero *)
Definition dots_to_zero (st : list string) : list bound_config := map (fun nm => {| bg := "states_dot"; bn := nm; bv := BSc (Fin 0) (Fin 0) |}) st.

Section Dots.
Variables (o : ocp) (st inp con : list string) (fixed : option R).
(** [z] has the values of [x] but for the derivative variables *)
Definition same_elsewhere (x z : list R) : Prop :=
  List.length z = List.length x /\ forall g nm s v, known_var st inp con fixed g nm -> g <> "states_dot" -> val o x g nm s v -> val o z g nm s v.
(** the derivative variables are within their bounds *)
Definition dots_within (bounds bcs : list setting) (last : nat) (x : list R) : Prop := forall nm s, In nm st -> (s <= last)%nat ->
  exists v, val o x "states_dot" nm s v /\ ele (fst (expected (oc_op o) bounds bcs "states_dot" nm s)) v /\ ege (snd (expected (oc_op o) bounds bcs "states_dot" nm s)) v.
Definition dots_zero (last : nat) (x : list R) : Prop := forall nm s, In nm st -> (s <= last)%nat -> val o x "states_dot" nm s 0.
End Dots.

(** the derivative functions of the model algebra are exact: jacobian, and hessian of every combination of the residuals (both triangles) *)
Definition exact_derivatives {P} (M : smodel P) (con : list string) : Prop := forall p mesh,
  let nin := num_implicit_var (names_of M con) in let res := residual (names_of M con) (m_forward M p) mesh in
  is_jacobian nin (num_implicit_res (names_of M con)) res (fun w => tri (fst (m_js M con)) (snd (m_js M con)) (m_jac M con w mesh p)) /\
  forall l, List.length l = num_implicit_res (names_of M con) -> is_hessian nin (fun w => vdot l (res w)) (fun w => tri (fst (m_hs M con)) (snd (m_hs M con)) (m_hess M con w l mesh p)).
