(** Model of variable bounds: lumos/optimal_control/config.py:8-41 and scaled_mesh_ocp.py:623-638, 724-792. *)
From Verif Require Import Base RBase TreeModel UtilsModel NlpModel.

(** numpy comparison of bound values (floats including infinities; NaN is not modelled) *)
Definition eleb (a b : ebound) : bool :=
  match a, b with
  | NegInf, _ => true
  | _, PosInf => true
  | Fin x, Fin y => if Rle_dec x y then true else false
  | _, _ => false
  end.

(** ** config.py:8-41 [BoundConfig] *)
(** a Python value given as a bound: a scalar, a numpy array with its number of dimensions, or something else *)
Inductive pyval := PScalar (v : ebound) | PArray (ndim : nat) (v : list ebound) | POther.
(** a validated pair of bounds *)
Inductive bnds := BSc (l u : ebound) | BAr (l u : list ebound).

Definition all_le (l u : list ebound) : bool := forallb (fun p => eleb (fst p) (snd p)) (combine l u).

(** config.py:20-41 [__post_init__] *)
Definition check_bound_values (lb ub : pyval) : result bnds :=
  match lb, ub with
  | PScalar l, PScalar u => if eleb l u then Ok (BSc l u) else Raise AssertionError
  | PArray dl l, PArray du u =>
      if negb (Nat.eqb dl 1 && Nat.eqb du 1) then Raise AssertionError
      else if negb (Nat.eqb (List.length l) (List.length u)) then Raise AssertionError
      else if all_le l u then Ok (BAr l u) else Raise AssertionError
  | _, _ => Raise TypeError
  end.

Record bound_config := { bg : string; bn : string; bv : bnds }.
Definition make_bound_config (g n : string) (lb ub : pyval) : result bound_config :=
  fmap (fun v => {| bg := g; bn := n; bv := v |}) (check_bound_values lb ub).
(** config.py:57-64; the value of a boundary condition is a float v (here BSc v v) or a tuple (l, u) *)
Record bc_config := { cstage : Z; cg : string; cn : string; cv : bnds }.

(** ** The problem's bounds *)
Record bst := { lbs : list ebound; ubs : list ebound; bcs : list bc_config }.

Definition put_all (idx : list nat) (vs : list ebound) (x : list ebound) : list ebound :=
  fold_left (fun acc p => upd (fst p) (snd p) acc) (combine idx vs) x.

(** scaled_mesh_ocp.py:738-764 [_set_var_bounds]; the single calls [set_state_bounds], [set_input_bounds],
    [set_con_output_bounds] (772-785) are this with a fixed group.  Simplification: a tuple of two arrays of different
    lengths (possible only when bypassing BoundConfig) is rejected; numpy would broadcast an array of length 1. *)
Definition set_var_bounds (op : dvo) (g n : string) (stage : option Z) (b : bnds) (s : bst) : result bst :=
  bind (match stage with Some z => fmap (fun i => [i]) (index_at op g n z) | None => index_all op g n end) (fun idx =>
  let scalar_idx := (match stage with Some _ => true | None => false end || String.eqb g "global")%bool in
  match b with
  | BSc l u =>
      if eleb l u then
        Ok {| lbs := put_all idx (repeat l (List.length idx)) (lbs s); ubs := put_all idx (repeat u (List.length idx)) (ubs s); bcs := bcs s |}
      else Raise AssertionError
  | BAr l u =>
      if (negb scalar_idx && negb (Nat.eqb (List.length l) (num_stages op)))%bool then Raise AssertionError
      else if negb (Nat.eqb (List.length l) (List.length u)) then Raise ValueError
      else if negb (all_le l u) then Raise AssertionError
      else if (scalar_idx && negb (Nat.eqb (List.length l) 1))%bool then Raise ValueError
      else Ok {| lbs := put_all idx l (lbs s); ubs := put_all idx u (ubs s); bcs := bcs s |}
  end).

(** run a loop of calls; an exception stops it and keeps what was done before *)
Fixpoint run_sets (fs : list (bst -> result bst)) (s : bst) : bst * result unit :=
  match fs with
  | [] => (s, Ok tt)
  | f :: r => match f s with Ok s' => run_sets r s' | Raise e => (s, Raise e) end
  end.

(** scaled_mesh_ocp.py:732-737 [_apply_boundary_conditions] *)
Definition apply_bcs (op : dvo) (s : bst) : bst * result unit :=
  run_sets (map (fun c => set_var_bounds op (cg c) (cn c) (Some (cstage c)) (cv c)) (bcs s)) s.
(** scaled_mesh_ocp.py:623-638 [update_bounds] *)
Definition update_bounds (op : dvo) (bs : list bound_config) (s : bst) : bst * result unit :=
  match run_sets (map (fun b => set_var_bounds op (bg b) (bn b) None (bv b)) bs) s with
  | (s', Ok _) => apply_bcs op s'
  | r => r
  end.
(** scaled_mesh_ocp.py:724-730 [update_boundary_conditions]: stored before they are applied *)
Definition update_bcs (op : dvo) (l : list bc_config) (s : bst) : bst * result unit :=
  apply_bcs op {| lbs := lbs s; ubs := ubs s; bcs := bcs s ++ l |}.

(** nlp.py: a new problem has no bounds; scaled_mesh_ocp.py:60 no boundary conditions *)
Definition init_bounds (op : dvo) : bst :=
  {| lbs := repeat NegInf (num_dec op); ubs := repeat PosInf (num_dec op); bcs := [] |}.

Inductive bop := OpBounds (bs : list bound_config) | OpBCs (l : list bc_config) | OpSet (g n : string) (stage : option Z) (b : bnds).
Definition bstep (op : dvo) (s : bst) (o : bop) : bst * result unit :=
  match o with
  | OpBounds bs => update_bounds op bs s
  | OpBCs l => update_bcs op l s
  | OpSet g n st b => run_sets [set_var_bounds op g n st b] s
  end.
(** a history: calls that raise are survived by the caller *)
Definition brun (op : dvo) (ops : list bop) : bst := fold_left (fun s o => fst (bstep op s o)) ops (init_bounds op).
