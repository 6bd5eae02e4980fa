(** What bounds a variable should have after a sequence of settings. *)
From Verif Require Import Base RBase TreeModel UtilsModel NlpModel BoundModel.

(** one setting: bounds for a variable (group, name) at all stages (None) or one stage *)
Record setting := { k_g : string; k_n : string; k_stage : option Z; k_v : bnds }.
Definition of_bound (b : bound_config) : setting := {| k_g := bg b; k_n := bn b; k_stage := None; k_v := bv b |}.
Definition of_bc (c : bc_config) : setting := {| k_g := cg c; k_n := cn c; k_stage := Some (cstage c); k_v := cv c |}.

(** the setting concerns variable "group.name" at stage s (negative stages count from the end; global
    variables have no stage) *)
Definition about (op : dvo) (g n : string) (s : nat) (c : setting) : bool :=
  (String.eqb (svname (k_g c) (k_n c)) (svname g n) &&
   (String.eqb g "global" ||
    match k_stage c with
    | None => true
    | Some z => (Z.eqb z (Z.of_nat s) || Z.eqb z (Z.of_nat s - Z.of_nat (num_stages op)))%Z
    end))%bool.
(** the (lower, upper) pair it gives to stage s: scalars for all, arrays one entry per stage *)
Definition value_for (g : string) (s : nat) (c : setting) : ebound * ebound :=
  match k_v c with
  | BSc l u => (l, u)
  | BAr l u =>
      match k_stage c with
      | None => if String.eqb g "global" then (nth 0 l NegInf, nth 0 u PosInf) else (nth s l NegInf, nth s u PosInf)
      | Some _ => (nth 0 l NegInf, nth 0 u PosInf)
      end
  end.
(** the last setting about the variable *)
Definition last_about (op : dvo) (g n : string) (s : nat) (cs : list setting) : option setting :=
  find (about op g n s) (rev cs).
(** boundary conditions win over bounds, later ones over earlier ones, unbounded by default *)
Definition expected (op : dvo) (bounds bcs : list setting) (g n : string) (s : nat) : ebound * ebound :=
  match last_about op g n s bcs with
  | Some c => value_for g s c
  | None => match last_about op g n s bounds with
            | Some c => value_for g s c
            | None => (NegInf, PosInf)
            end
  end.

(** bounds of a variable at a stage, addressed like the public API does (get_var_index_in_dec) *)
Definition bounds_at (op : dvo) (st : bst) (g n : string) (s : nat) (b : ebound * ebound) : Prop :=
  exists k, index_at op g n (Z.of_nat s) = Ok k /\ nth_error (lbs st) k = Some (fst b) /\ nth_error (ubs st) k = Some (snd b).
(** the problem has variable [n] in group [g]; stages count from 0 or, negatively, from the end *)
Definition has_var (op : dvo) (g n : string) : Prop :=
  (g = "global" /\ In n (gnames op)) \/ (g <> "global" /\ In (svname g n) (stage_var_names op)).
Definition stage_in_range (op : dvo) (z : Z) : Prop := (- Z.of_nat (num_stages op) <= z <= Z.of_nat (num_stages op) - 1)%Z.

(** every call of the history succeeds *)
Fixpoint all_succeed (op : dvo) (s : bst) (ops : list bop) : Prop :=
  match ops with
  | [] => True
  | o :: r => snd (bstep op s o) = Ok tt /\ all_succeed op (fst (bstep op s o)) r
  end.
(** the settings in the order in which they take effect: an update_bounds call re-applies all boundary conditions known so far,
    an update_boundary_conditions call applies the known ones and the new ones *)
Fixpoint effective (known : list bc_config) (ops : list bop) : list setting :=
  match ops with
  | [] => []
  | OpBounds bs :: r => map of_bound bs ++ map of_bc known ++ effective known r
  | OpBCs l :: r => map of_bc (known ++ l) ++ effective (known ++ l) r
  | OpSet g n st b :: r => {| k_g := g; k_n := n; k_stage := st; k_v := b |} :: effective known r
  end.
Definition all_bounds (ops : list bop) : list setting := flat_map (fun o => match o with OpBounds bs => map of_bound bs | _ => [] end) ops.
Definition all_bcs (ops : list bop) : list setting := flat_map (fun o => match o with OpBCs l => map of_bc l | _ => [] end) ops.
Definition no_direct (ops : list bop) : Prop := forall o, In o ops -> match o with OpSet _ _ _ _ => False | _ => True end.
