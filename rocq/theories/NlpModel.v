(** Model of lumos/optimal_control/nlp.py: scaled constraint/objective objects, the composite
    problem and the scaled solve.  Numbers are exact reals (simplification: no rounding, no
    NaN/inf); user callables are arbitrary Coq functions. *)
From Verif Require Import Base RBase TreeModel.

(** ** BaseConstraints *)

(** nlp.py:52-105 attributes of BaseConstraints.  Structures are kept flattened (np.ravel). *)
Record bcon := {
  c_nin : nat;
  c_ncon : nat;
  c_f : list R -> list R;              (* _constraints *)
  c_j : list R -> list R;              (* _jacobian: values, flattened *)
  c_h : list R -> list R -> list R;    (* _hessian(x, lagrange): values, flattened *)
  c_jr : list nat; c_jc : list nat;    (* jacobian structure *)
  c_hr : list nat; c_hc : list nat;    (* hessian structure *)
  c_in : list R;                       (* _input_scales *)
  c_con : list R;                      (* _con_scales *)
  c_js : list R;                       (* _jac_scales (derived) *)
  c_hs : list R;                       (* _hess_scales (derived) *)
}.

(** [np.nonzero(np.ones((m, n)))], nlp.py:85, 96 *)
Definition dense_structure (m n : nat) : list nat * list nat :=
  (flat_map (fun i => map (fun _ => i) (seq 0 n)) (seq 0 m),
   flat_map (fun _ => seq 0 n) (seq 0 m)).

Definition with_in (c : bcon) (s : list R) : bcon :=
  {| c_nin := c_nin c; c_ncon := c_ncon c; c_f := c_f c; c_j := c_j c; c_h := c_h c; c_jr := c_jr c; c_jc := c_jc c;
     c_hr := c_hr c; c_hc := c_hc c; c_in := s; c_con := c_con c; c_js := c_js c; c_hs := c_hs c |}.
Definition with_con (c : bcon) (s : list R) : bcon :=
  {| c_nin := c_nin c; c_ncon := c_ncon c; c_f := c_f c; c_j := c_j c; c_h := c_h c; c_jr := c_jr c; c_jc := c_jc c;
     c_hr := c_hr c; c_hc := c_hc c; c_in := c_in c; c_con := s; c_js := c_js c; c_hs := c_hs c |}.
Definition with_js (c : bcon) (s : list R) : bcon :=
  {| c_nin := c_nin c; c_ncon := c_ncon c; c_f := c_f c; c_j := c_j c; c_h := c_h c; c_jr := c_jr c; c_jc := c_jc c;
     c_hr := c_hr c; c_hc := c_hc c; c_in := c_in c; c_con := c_con c; c_js := s; c_hs := c_hs c |}.
Definition with_hs (c : bcon) (s : list R) : bcon :=
  {| c_nin := c_nin c; c_ncon := c_ncon c; c_f := c_f c; c_j := c_j c; c_h := c_h c; c_jr := c_jr c; c_jc := c_jc c;
     c_hr := c_hr c; c_hc := c_hc c; c_in := c_in c; c_con := c_con c; c_js := c_js c; c_hs := s |}.

(** nlp.py:160-174 [update_jac_scales]: con_scales[rows] / input_scales[cols] *)
Definition update_jac_scales (c : bcon) : result bcon :=
  bind (gather (c_con c) (c_jr c)) (fun a =>
  bind (gather (c_in c) (c_jc c)) (fun b => Ok (with_js c (vdiv a b)))).

(** nlp.py:176-178 [update_hess_scales]: 1 / (input_scales[rows] * input_scales[cols]) *)
Definition update_hess_scales (c : bcon) : result bcon :=
  bind (gather (c_in c) (c_hr c)) (fun a =>
  bind (gather (c_in c) (c_hc c)) (fun b => Ok (with_hs c (map (fun v => 1 / v) (vmul a b))))).

(** nlp.py:151-154 [set_input_scales] *)
Definition set_input_scales (c : bcon) (s : list R) : result bcon :=
  bind (update_jac_scales (with_in c s)) update_hess_scales.

(** nlp.py:156-158 [set_con_scales]; the hessian scales do not depend on the con scales *)
Definition set_con_scales (c : bcon) (s : list R) : result bcon :=
  update_jac_scales (with_con c s).

(** nlp.py:52-105 [BaseConstraints.__init__]; [None] structures are dense *)
Definition make_con (nin ncon : nat) (f : list R -> list R) (j : list R -> list R) (h : list R -> list R -> list R)
    (js hs : option (list nat * list nat)) : result bcon :=
  let js' := match js with Some s => s | None => dense_structure ncon nin end in
  let hs' := match hs with Some s => s | None => dense_structure nin nin end in
  let c := {| c_nin := nin; c_ncon := ncon; c_f := f; c_j := j; c_h := h;
              c_jr := fst js'; c_jc := snd js'; c_hr := fst hs'; c_hc := snd hs';
              c_in := ones nin; c_con := ones ncon; c_js := []; c_hs := [] |} in
  bind (update_jac_scales c) update_hess_scales.

(** nlp.py:107-111 [constraints] *)
Definition con_constraints (c : bcon) (x : list R) : list R := vdiv (c_f c (vmul x (c_in c))) (c_con c).
(** nlp.py:113-116 [jacobian] *)
Definition con_jacobian (c : bcon) (x : list R) : list R := vdiv (c_j c (vmul x (c_in c))) (c_js c).
(** nlp.py:118-127 [hessian] *)
Definition con_hessian (c : bcon) (x lam : list R) : list R :=
  vdiv (c_h c (vmul x (c_in c)) (vdiv lam (c_con c))) (c_hs c).

(** ** LinearConstraints, nlp.py:293-329 *)
Definition make_linear (nin ncon : nat) (f j : list R -> list R) (js : list nat * list nat) (cache : bool) : result bcon :=
  let jac_val := j (ones nin) in
  make_con nin ncon f (if cache then fun _ => jac_val else j) (fun _ _ => []) (Some js) (Some ([], [])).

(** ** BaseObjective, nlp.py:332-438 *)
Record bobj := {
  o_nin : nat;
  o_f : list R -> R;
  o_g : list R -> list R;
  o_h : list R -> list R;
  o_hr : list nat; o_hc : list nat;
  o_in : list R;
  o_hs : list R;
}.

(** nlp.py:389-391 [BaseObjective.update_hess_scales] *)
Definition obj_update_hess_scales (o : bobj) : result bobj :=
  bind (gather (o_in o) (o_hr o)) (fun a =>
  bind (gather (o_in o) (o_hc o)) (fun b =>
    Ok {| o_nin := o_nin o; o_f := o_f o; o_g := o_g o; o_h := o_h o; o_hr := o_hr o; o_hc := o_hc o;
          o_in := o_in o; o_hs := map (fun v => 1 / v) (vmul a b) |})).

(** nlp.py:377-387 [BaseObjective.set_input_scales] *)
Definition obj_set_input_scales (o : bobj) (s : list R) : result bobj :=
  obj_update_hess_scales
    {| o_nin := o_nin o; o_f := o_f o; o_g := o_g o; o_h := o_h o; o_hr := o_hr o; o_hc := o_hc o;
       o_in := s; o_hs := o_hs o |}.

(** nlp.py:333-375 [BaseObjective.__init__] *)
Definition make_obj (nin : nat) (f : list R -> R) (g h : list R -> list R) (hs : option (list nat * list nat)) : result bobj :=
  let hs' := match hs with Some s => s | None => dense_structure nin nin end in
  obj_update_hess_scales {| o_nin := nin; o_f := f; o_g := g; o_h := h; o_hr := fst hs'; o_hc := snd hs';
                            o_in := ones nin; o_hs := [] |}.

(** nlp.py:393-402 [objective], 404-413 [gradient], 425-438 [hessian] *)
Definition obj_objective (o : bobj) (x : list R) : R := o_f o (vmul x (o_in o)).
Definition obj_gradient (o : bobj) (x : list R) : list R := vmul (o_g o (vmul x (o_in o))) (o_in o).
Definition obj_hessian (o : bobj) (x : list R) : list R := vdiv (o_h o (vmul x (o_in o))) (o_hs o).

(** ** CompositeProblem, nlp.py:668-886 *)
Record prob := {
  p_n : nat;                      (* num_dec *)
  p_cons : dict bcon;
  p_objs : dict bobj;
  p_triu : option (list bool);    (* _idx_triu *)
  p_scales : list R;              (* _dec_var_scales *)
}.

(** nlp.py:679-695, 884-886: constructor with default scales *)
Definition make_prob (n : nat) : prob :=
  {| p_n := n; p_cons := []; p_objs := []; p_triu := None; p_scales := ones n |}.

Definition set_cons (p : prob) (cs : dict bcon) : prob :=
  {| p_n := p_n p; p_cons := cs; p_objs := p_objs p; p_triu := p_triu p; p_scales := p_scales p |}.
Definition set_objs (p : prob) (os : dict bobj) : prob :=
  {| p_n := p_n p; p_cons := p_cons p; p_objs := os; p_triu := p_triu p; p_scales := p_scales p |}.
Definition set_triu (p : prob) (m : option (list bool)) : prob :=
  {| p_n := p_n p; p_cons := p_cons p; p_objs := p_objs p; p_triu := m; p_scales := p_scales p |}.

(** nlp.py:698-702 [num_con] *)
Definition num_con (p : prob) : nat := list_sum (map c_ncon (values (p_cons p))).

(** nlp.py:704-719 [add_constraints] *)
Definition add_constraints (p : prob) (name : string) (c : bcon) : result prob :=
  if dmem name (p_cons p) then Raise ValueError
  else if negb (Nat.eqb (c_nin c) (p_n p)) then Raise ValueError
  else bind (set_input_scales c (p_scales p)) (fun c' => Ok (set_cons p (dset name c' (p_cons p)))).

(** nlp.py:721-723 [delete_constraints] ([dict.pop] of a missing key raises KeyError) *)
Definition delete_constraints (p : prob) (name : string) : result prob :=
  if dmem name (p_cons p) then Ok (set_cons p (ddel name (p_cons p))) else Raise KeyError.

(** nlp.py:725-744 [add_objective]; note that num_in is not checked *)
Definition add_objective (p : prob) (name : string) (o : bobj) : result prob :=
  if dmem name (p_objs p) then Raise NameError
  else bind (obj_set_input_scales o (p_scales p)) (fun o' => Ok (set_objs p (dset name o' (p_objs p)))).

(** nlp.py:746-747 [delete_objective] *)
Definition delete_objective (p : prob) (name : string) : result prob :=
  if dmem name (p_objs p) then Ok (set_objs p (ddel name (p_objs p))) else Raise KeyError.

(** [np.hstack(list of arrays)]: an empty list raises ValueError *)
Definition hstackl {A} (l : list (list A)) : result (list A) :=
  match l with [] => Raise ValueError | _ => Ok (concat l) end.

(** nlp.py:750-751 [_compute_objective] *)
Definition prob_objective (p : prob) (x : list R) : result R :=
  fmap rsum (hstackl (map (fun o => [obj_objective o x]) (values (p_objs p)))).

(** nlp.py:753-756 [gradient]: column sums of the stacked gradients *)
Definition prob_gradient (p : prob) (x : list R) : result (list R) :=
  match map (fun o => obj_gradient o x) (values (p_objs p)) with
  | [] => Raise ValueError
  | g :: gs => Ok (fold_left vadd gs g)
  end.

(** nlp.py:758-761 [constraints] *)
Definition prob_constraints (p : prob) (x : list R) : result (list R) :=
  hstackl (map (fun c => con_constraints c x) (values (p_cons p))).

(** nlp.py:763-764 [jacobian] *)
Definition prob_jacobian (p : prob) (x : list R) : result (list R) :=
  hstackl (map (fun c => con_jacobian c x) (values (p_cons p))).

(** nlp.py:766-778 [jacobianstructure]: rows offset by the number of constraints before *)
Fixpoint jac_rows_from (off : nat) (cs : list bcon) : list (list nat) :=
  match cs with
  | [] => []
  | c :: r => map (fun i => (i + off)%nat) (c_jr c) :: jac_rows_from (off + c_ncon c) r
  end.
Definition prob_jacobianstructure (p : prob) : result (list nat * list nat) :=
  bind (hstackl (jac_rows_from 0 (values (p_cons p)))) (fun rs =>
  bind (hstackl (map c_jc (values (p_cons p)))) (fun cs => Ok (rs, cs))).

(** nlp.py:813-816 [split_constraints] *)
Definition split_constraints (p : prob) (v : list R) : dict (list R) :=
  dict_of_list (combine (keys (p_cons p)) (split_sizes (map c_ncon (values (p_cons p))) v)).

(** nlp.py:797-811 [hessianstructure]: also stores the mask *)
Definition hess_rows (p : prob) : list (list nat) := map c_hr (values (p_cons p)) ++ map o_hr (values (p_objs p)).
Definition hess_cols (p : prob) : list (list nat) := map c_hc (values (p_cons p)) ++ map o_hc (values (p_objs p)).
Definition prob_hessianstructure (p : prob) : prob * result (list nat * list nat) :=
  match hstackl (hess_rows p), hstackl (hess_cols p) with
  | Ok rs, Ok cs =>
      let m := map2 Nat.leb rs cs in
      (set_triu p (Some m), Ok (maskl rs m, maskl cs m))
  | Raise e, _ => (p, Raise e)
  | _, Raise e => (p, Raise e)
  end.

(** nlp.py:780-795 [hessian]; returns the new state because it may store the mask *)
Definition prob_hessian (p : prob) (x lam : list R) (obj_factor : R) : prob * result (list R) :=
  let p1 := match p_triu p with None => prob_hessianstructure p | Some _ => (p, Ok ([], [])) end in
  match p1 with
  | (p', Raise e) => (p', Raise e)
  | (p', Ok _) =>
      let lams := split_constraints p' lam in
      (p', bind (mapM (fun kc => fmap (con_hessian (snd kc) x) (lookup_err (fst kc) lams)) (p_cons p')) (fun cv =>
           bind (hstackl (cv ++ map (fun o => map (Rmult obj_factor) (obj_hessian o x)) (values (p_objs p')))) (fun vals =>
           match p_triu p' with Some m => mask vals m | None => Raise IndexError end)))
  end.

(** ** Solving, nlp.py:513-649 *)
(** bounds may be infinite *)
Inductive ebound : Type := NegInf | Fin (r : R) | PosInf.
(** numpy division of a bound by a finite nonzero scale *)
Definition ediv (b : ebound) (s : R) : ebound :=
  match b with
  | Fin r => Fin (r / s)
  | NegInf => if Rlt_dec s 0 then PosInf else NegInf
  | PosInf => if Rlt_dec s 0 then NegInf else PosInf
  end.
Definition ele (b : ebound) (x : R) : Prop := match b with NegInf => True | Fin r => r <= x | PosInf => False end.
Definition ege (b : ebound) (x : R) : Prop := match b with PosInf => True | Fin r => x <= r | NegInf => False end.
Definition within (lb ub : list ebound) (x : list R) : Prop :=
  Forall2 ele lb x /\ Forall2 ege ub x.

(** What IPOPT is given (nlp.py:513-535): the scaled bounds and the problem's callbacks *)
Record ipopt_problem := {
  ip_lb : list ebound; ip_ub : list ebound;
  ip_cl : list ebound; ip_cu : list ebound;
  ip_objective : list R -> result R;
  ip_constraints : list R -> result (list R);
}.

Definition construct_ipopt (p : prob) (lb ub cl cu : list ebound) : ipopt_problem :=
  {| ip_lb := map2 ediv lb (p_scales p); ip_ub := map2 ediv ub (p_scales p); ip_cl := cl; ip_cu := cu;
     ip_objective := prob_objective p; ip_constraints := prob_constraints p |}.

(** nlp.py:589-599: a constant objective is added when there is none *)
Definition const_obj (n : nat) : result bobj := make_obj n (fun _ => 0) (fun _ => zeros n) (fun _ => []) (Some ([], [])).
Definition ensure_objective (p : prob) : result prob :=
  match p_objs p with
  | [] => bind (const_obj (p_n p)) (add_objective p "const_obj")
  | _ => Ok p
  end.

(** nlp.py:581-649 [solve]; the optimizer is an arbitrary function (oracle) returning a vector and
    a status.  Not modelled: option handling, parsing of the timing output file. *)
Definition solve (ipopt : ipopt_problem -> list R -> list R * Z) (p : prob) (lb ub cl cu : list ebound) (guess : list R)
  : result (prob * (list R * Z)) :=
  bind (ensure_objective p) (fun p' =>
  let (y, status) := ipopt (construct_ipopt p' lb ub cl cu) (vdiv guess (p_scales p')) in
  if Z.eqb status (-13) then Raise RuntimeError
  else Ok (p', (vmul y (p_scales p'), status))).

(** scaled_mesh_ocp.py:669-684 (part of [set_scales]) / model_solver.py:183-187: new decision
    variable scales are stored and pushed into every objective and constraint *)
Definition set_dec_var_scales (p : prob) (s : list R) : result prob :=
  bind (mapM (fun ko => fmap (fun o => (fst ko, o)) (obj_set_input_scales (snd ko) s)) (p_objs p)) (fun os =>
  bind (mapM (fun kc => fmap (fun c => (fst kc, c)) (set_input_scales (snd kc) s)) (p_cons p)) (fun cs =>
  Ok {| p_n := p_n p; p_cons := cs; p_objs := os; p_triu := p_triu p; p_scales := s |})).

(** One API call on a composite problem; an exception leaves the problem as the call left it.
    [set_dec_var_scales] with well-formed pieces never raises (proved), so its error branch is
    immaterial. *)
Inductive pop : Type :=
| PAddC (name : string) (c : bcon) | PDelC (name : string)
| PAddO (name : string) (o : bobj) | PDelO (name : string)
| PScales (s : list R) | PHStruct | PHess (x lam : list R) (obj_factor : R).
Definition keep (p : prob) (r : result prob) : prob := match r with Ok p' => p' | Raise _ => p end.
Definition pstep (p : prob) (o : pop) : prob :=
  match o with
  | PAddC n c => keep p (add_constraints p n c)
  | PDelC n => keep p (delete_constraints p n)
  | PAddO n ob => keep p (add_objective p n ob)
  | PDelO n => keep p (delete_objective p n)
  | PScales s => keep p (set_dec_var_scales p s)
  | PHStruct => fst (prob_hessianstructure p)
  | PHess x lam f => fst (prob_hessian p x lam f)
  end.
Definition prun (p : prob) (ops : list pop) : prob := fold_left pstep ops p.
