(** Model of the condensed problem: lumos/optimal_control/scaled_mesh_ocp.py:206-470, 1251-1279.
    The stored "model_algebra" constraints are [alg]; the stored "continuity" constraints are the functions of OcpModel (their scales stay 1: they leave the problem before set_scales).
    A scipy sparse matrix is its function from row and column to the entry; [get_csc_jacobian] sums duplicates, that is [tri]. *)
From Verif Require Import Base RBase UtilsModel CollocModel MeshModel NlpModel OcpModel.

Section Cond.
Variables (o : ocp) (alg : bcon) (nimp : nat).      (* nimp: model.num_implicit_res *)
(** model.batched_forward(states, inputs, mesh, params).states_dot *)
Variable fwd : list (list R) -> list (list R) -> list R -> list (list R).
(** self._flat_normalized_mesh *)
Variable fmesh : list R.
Let op := oc_op o.
Let d := num_states o.

(** np.reshape(a, (num_stages, -1)) *)
Definition by_stage (a : list R) : result (list (list R)) :=
  if Nat.eqb (List.length a mod num_stages op) 0 then Ok (chunks (num_stages op) (List.length a / num_stages op) a) else Raise ValueError.
(** [new_x = np.copy(x); new_x[idx] = 0] *)
Definition zero_at (idx : list nat) (x : list R) : list R := fold_left (fun y i => upd i 0 y) idx x.
(** scaled_mesh_ocp.py:206-249 [_condensed_constraints] *)
Definition condensed_constraints (x : list R) : result (list R) :=
  bind (get_interval_tensor op x "states") (fun X =>
  bind (group_indices_in_dec op "states_dot") (fun idx =>
  bind (by_stage (con_constraints alg (zero_at idx x))) (fun ac =>
  bind (get_mesh_scale o x) (fun s =>
  let h := phys_lengths o s in
  bind (batch_conv1d (map (firstn d) ac) (nspi op) (nspi op - 1)) (fun Y =>
  if negb (Nat.eqb (List.length (rows Y)) (List.length h)) then Raise ValueError else
  Ok (concat (map (@concat R) (map2 (fun Xi Yi => msub (mmul (t_A (oc_tr o)) Xi d) (mmul (t_B (oc_tr o)) Yi d)) (rows X) (map2 mscale (rows Y) h)))
      ++ concat (map (skipn d) ac))))))).

(** scaled_mesh_ocp.py:262-267: rows of the state equations in the model algebra *)
Definition xdot_eqs : list nat := concat (stack_and_increment (seq 0 d) (num_stages op) nimp).
(** scaled_mesh_ocp.py:255-288 [_make_chainrule_condensed_jacobian]; the algebra has [c_ncon alg] rows *)
Definition kept_rows : list nat := filter (fun r => negb (existsb (Nat.eqb r) xdot_eqs)) (seq 0 (c_ncon alg)).
Definition chainrule (idx : list nat) (Jc Ja : nat -> nat -> R) (i q : nat) : R :=
  if Nat.ltb i (num_continuity_cons o) then Jc i q + rsum (map2 (fun a e => Jc i a * Ja e q) idx xdot_eqs)
  else Ja (nth (i - num_continuity_cons o) kept_rows 0%nat) q.
(** scaled_mesh_ocp.py:1263-1269: number of condensed constraints *)
Definition num_condensed : nat := (num_intervals o * (nspi op - 1) * d + num_stages op * (nimp - d))%nat.
Definition alg_jac (x : list R) : nat -> nat -> R := tri (c_jr alg) (c_jc alg) (con_jacobian alg x).
Definition cont_jac (x : list R) : result (nat -> nat -> R) :=
  bind (continuity_jacobianstructure o) (fun s => bind (continuity_jacobian o x) (fun v => Ok (tri (fst s) (snd s) v))).
(** scaled_mesh_ocp.py:298-315: the states_dot entries of x replaced by the model's *)
Definition with_dots (x : list R) : result (list R) :=
  bind (unflatten_var op x) (fun v =>
  let arr g := match dget g v with Some f => match f with FArr a => a | FSc _ => [] end | None => [] end in
  let sc g := match dget g v with Some f => match f with FSc a => a | FArr _ => 0 end | None => 0 end in
  bind (get_mesh_scale o x) (fun s =>
  flatten_var op [("states", FArr (arr "states")); ("inputs", FArr (arr "inputs")); ("con_outputs", FArr (arr "con_outputs")); ("mesh_scale", FSc (sc "mesh_scale"));
                  ("states_dot", FArr (fwd (arr "states") (arr "inputs") (map (fun m => m * s) fmesh)))])).
(** scaled_mesh_ocp.py:290-319: the matrix [big_jac] *)
Definition big_jac (x : list R) : result (nat -> nat -> R) :=
  bind (group_indices_in_dec op "states_dot") (fun idx =>
  bind (if has_scale o then with_dots x else Ok x) (fun x' =>
  bind (cont_jac x') (fun Jc => Ok (chainrule idx Jc (alg_jac x))))).
(** scaled_mesh_ocp.py:329-351 [_condensed_jacobianstructure]: the nonzero entries at the point [x0] (numpy's random vector), column by column *)
Definition nonzeros (nr nc : nat) (M : nat -> nat -> R) : list nat * list nat :=
  let ps := filter (fun rc => negb (if Req_EM_T (M (fst rc) (snd rc)) 0 then true else false)) (flat_map (fun q => map (fun r => (r, q)) (seq 0 nr)) (seq 0 nc)) in
  (map fst ps, map snd ps).
Definition condensed_jacobianstructure (x0 : list R) : result (list nat * list nat) :=
  bind (group_indices_in_dec op "states_dot") (fun idx => bind (cont_jac x0) (fun Jc =>
  Ok (nonzeros (num_continuity_cons o + List.length kept_rows) (num_dec op) (chainrule idx Jc (alg_jac x0))))).
(** scaled_mesh_ocp.py:320-327: the values [big_jac[rows, cols]] *)
Definition condensed_jacobian (struct : list nat * list nat) (x : list R) : result (list R) := bind (big_jac x) (fun M => Ok (map2 M (fst struct) (snd struct))).

(** scaled_mesh_ocp.py:373-419: equivalent multipliers of the stored model algebra *)
Fixpoint add_shared (l : list (list (list R))) : list (list (list R)) :=       (* 397-399: a[:-1, -1, :] += a[1:, 0, :] *)
  match l with
  | a :: ((b :: _) as r) => (removelast a ++ [vadd (last a []) (hd [] b)]) :: add_shared r
  | _ => l
  end.
Definition equivalent_multipliers (x lam : list R) : result (list R) :=
  let n := num_intervals o in let m := nspi op in
  let ncc := (n * (m - 1) * d)%nat in
  let lc := firstn ncc lam in let la := skipn ncc lam in
  bind (get_mesh_scale o x) (fun s =>
  if negb (Nat.eqb (List.length lc) ncc) then Raise ValueError else
  let L := map (chunks (m - 1) d) (chunks n ((m - 1) * d) lc) in
  if negb (Nat.eqb (List.length (phys_lengths o s)) n) then Raise ValueError else
  let conv := add_shared (map2 mscale (map (fun Li => mmul (mtrans (mopp (t_B (oc_tr o))) m) Li d) L) (phys_lengths o s)) in
  let conv := hd [] (hd [] conv) :: concat (map (@tl _) conv) in
  bind (by_stage la) (fun ar =>
  if negb (Nat.eqb (List.length conv) (List.length ar)) then Raise ValueError else Ok (concat (map2 (@app R) conv ar)))).
(** scaled_mesh_ocp.py:353-454 [_condensed_hessian] *)
Definition condensed_hessian (x lam : list R) : result (list R) :=
  bind (equivalent_multipliers x lam) (fun leq =>
  let ah := con_hessian alg x leq in
  if has_scale o then
    bind (group_indices_in_dec op "states_dot") (fun idx =>
    bind (continuity_hessianstructure o) (fun hs => bind (continuity_hessian o (firstn (num_intervals o * (nspi op - 1) * d) lam)) (fun hv =>
    let H := tri (fst hs) (snd hs) hv in
    Ok (ah ++ map (fun q => if existsb (Nat.eqb q) idx then 0 else rsum (map2 (fun a e => alg_jac x e q * H a (num_dec op - 1)%nat) idx xdot_eqs)) (seq 0 (num_dec op))))))
  else Ok ah).
(** scaled_mesh_ocp.py:456-470 [_condensed_hessianstructure] *)
Definition condensed_hessianstructure : list nat * list nat :=
  if has_scale o then (c_hr alg ++ seq 0 (num_dec op), c_hc alg ++ repeat (num_dec op - 1)%nat (num_dec op)) else (c_hr alg, c_hc alg).
End Cond.
