(** Constraints, objectives, problems and arrays of scales as objects that are shared by reference: the parts of nlp.py, scaled_mesh_ocp.py and
    model_solver.py that store a scale array or a constraint object without copying it.  A constraint object keeps references to two arrays of scales
    ([_input_scales], [_con_scales]) and two arrays that were derived from them when a setter was last called ([_jac_scales], [_hess_scales]); a problem keeps
    references to its constraint and objective objects and to its array of decision variable scales.

    Simplifications: the other attributes of the objects are immutable (callables, structures); references are natural numbers and objects are never collected; an
    array is overwritten as a whole (numpy writes the elements that are indexed; the array after the write is what matters); an exception ends the program; a name that was never bound raises NameError. *)
From Verif Require Import Base RBase NlpModel.

(** nlp.py:52-105 an object of BaseConstraints: [hc_v] holds the attributes that belong to the object alone, the fields [c_in] and [c_con] of it are not used *)
Record hcon := { hc_v : bcon; hc_in : nat; hc_con : nat }.
(** nlp.py:333-375 an object of BaseObjective; the field [o_in] of [ho_v] is not used *)
Record hobj := { ho_v : bobj; ho_in : nat }.
(** nlp.py:679-695 a CompositeProblem *)
Record hprob := { hp_n : nat; hp_cons : dict nat; hp_objs : dict nat; hp_triu : option (list bool); hp_scales : nat }.
(** all objects, and the arrays that the user has a name for *)
Record world := {
  w_arr : nat -> list R; w_na : nat;
  w_con : nat -> hcon; w_nc : nat;
  w_obj : nat -> hobj; w_no : nat;
  w_prob : nat -> hprob; w_np : nat;
  w_user : nat -> nat; w_nu : nat }.

(** "x * self._input_scales" etc. read the array at the time of the call *)
Definition with_oin (o : bobj) (s : list R) : bobj :=
  {| o_nin := o_nin o; o_f := o_f o; o_g := o_g o; o_h := o_h o; o_hr := o_hr o; o_hc := o_hc o; o_in := s; o_hs := o_hs o |}.
Definition view_con (w : world) (c : hcon) : bcon := with_con (with_in (hc_v c) (w_arr w (hc_in c))) (w_arr w (hc_con c)).
Definition view_obj (w : world) (o : hobj) : bobj := with_oin (ho_v o) (w_arr w (ho_in o)).
Definition view_prob (w : world) (p : hprob) : prob :=
  {| p_n := hp_n p; p_cons := map (fun kc => (fst kc, view_con w (w_con w (snd kc)))) (hp_cons p);
     p_objs := map (fun ko => (fst ko, view_obj w (w_obj w (snd ko)))) (hp_objs p); p_triu := hp_triu p; p_scales := w_arr w (hp_scales p) |}.

Definition put {A} (f : nat -> A) (i : nat) (x : A) : nat -> A := fun j => if Nat.eqb j i then x else f j.
Definition put_arr (w : world) (a : nat) (l : list R) : world :=
  {| w_arr := put (w_arr w) a l; w_na := w_na w; w_con := w_con w; w_nc := w_nc w; w_obj := w_obj w; w_no := w_no w; w_prob := w_prob w; w_np := w_np w;
     w_user := w_user w; w_nu := w_nu w |}.
Definition put_con (w : world) (i : nat) (c : hcon) : world :=
  {| w_arr := w_arr w; w_na := w_na w; w_con := put (w_con w) i c; w_nc := w_nc w; w_obj := w_obj w; w_no := w_no w; w_prob := w_prob w; w_np := w_np w;
     w_user := w_user w; w_nu := w_nu w |}.
Definition put_obj (w : world) (i : nat) (o : hobj) : world :=
  {| w_arr := w_arr w; w_na := w_na w; w_con := w_con w; w_nc := w_nc w; w_obj := put (w_obj w) i o; w_no := w_no w; w_prob := w_prob w; w_np := w_np w;
     w_user := w_user w; w_nu := w_nu w |}.
Definition put_prob (w : world) (i : nat) (p : hprob) : world :=
  {| w_arr := w_arr w; w_na := w_na w; w_con := w_con w; w_nc := w_nc w; w_obj := w_obj w; w_no := w_no w; w_prob := put (w_prob w) i p; w_np := w_np w;
     w_user := w_user w; w_nu := w_nu w |}.
(** a new array; its reference is the counter *)
Definition new_arr (w : world) (l : list R) : world :=
  {| w_arr := put (w_arr w) (w_na w) l; w_na := S (w_na w); w_con := w_con w; w_nc := w_nc w; w_obj := w_obj w; w_no := w_no w; w_prob := w_prob w; w_np := w_np w;
     w_user := w_user w; w_nu := w_nu w |}.

(** "a = np.array(...)" of the user *)
Definition new_user (w : world) (l : list R) : world :=
  let w1 := new_arr w l in
  {| w_arr := w_arr w1; w_na := w_na w1; w_con := w_con w1; w_nc := w_nc w1; w_obj := w_obj w1; w_no := w_no w1; w_prob := w_prob w1; w_np := w_np w1;
     w_user := put (w_user w1) (w_nu w1) (w_na w); w_nu := S (w_nu w1) |}.
(** nlp.py:52-105 a new constraint object; [v] is what its constructor has computed, in arrays of its own (nlp.py:101-102) *)
Definition new_con (w : world) (v : bcon) : world :=
  let w1 := new_arr (new_arr w (c_in v)) (c_con v) in
  {| w_arr := w_arr w1; w_na := w_na w1; w_con := put (w_con w1) (w_nc w1) {| hc_v := v; hc_in := w_na w; hc_con := S (w_na w) |}; w_nc := S (w_nc w1);
     w_obj := w_obj w1; w_no := w_no w1; w_prob := w_prob w1; w_np := w_np w1; w_user := w_user w1; w_nu := w_nu w1 |}.
(** nlp.py:333-375 a new objective object *)
Definition new_obj (w : world) (v : bobj) : world :=
  let w1 := new_arr w (o_in v) in
  {| w_arr := w_arr w1; w_na := w_na w1; w_con := w_con w1; w_nc := w_nc w1; w_obj := put (w_obj w1) (w_no w1) {| ho_v := v; ho_in := w_na w |}; w_no := S (w_no w1);
     w_prob := w_prob w1; w_np := w_np w1; w_user := w_user w1; w_nu := w_nu w1 |}.
(** nlp.py:679-695, 884-886 a new problem with default scales *)
Definition new_prob (w : world) (n : nat) : world :=
  let w1 := new_arr w (ones n) in
  {| w_arr := w_arr w1; w_na := w_na w1; w_con := w_con w1; w_nc := w_nc w1; w_obj := w_obj w1; w_no := w_no w1;
     w_prob := put (w_prob w1) (w_np w1) {| hp_n := n; hp_cons := []; hp_objs := []; hp_triu := None; hp_scales := w_na w |}; w_np := S (w_np w1);
     w_user := w_user w1; w_nu := w_nu w1 |}.

Definition hp_set_cons (p : hprob) (d : dict nat) : hprob :=
  {| hp_n := hp_n p; hp_cons := d; hp_objs := hp_objs p; hp_triu := hp_triu p; hp_scales := hp_scales p |}.
Definition hp_set_objs (p : hprob) (d : dict nat) : hprob :=
  {| hp_n := hp_n p; hp_cons := hp_cons p; hp_objs := d; hp_triu := hp_triu p; hp_scales := hp_scales p |}.
Definition hp_set_triu (p : hprob) (m : option (list bool)) : hprob :=
  {| hp_n := hp_n p; hp_cons := hp_cons p; hp_objs := hp_objs p; hp_triu := m; hp_scales := hp_scales p |}.
Definition hp_set_scales (p : hprob) (a : nat) : hprob :=
  {| hp_n := hp_n p; hp_cons := hp_cons p; hp_objs := hp_objs p; hp_triu := hp_triu p; hp_scales := a |}.

(** nlp.py:151-154 [set_input_scales]: the array itself is kept; the scales of the derivatives are computed from what it holds now *)
Definition hset_input_scales (w : world) (i a : nat) : result world :=
  let o := w_con w i in
  let o' := {| hc_v := hc_v o; hc_in := a; hc_con := hc_con o |} in
  fmap (fun v => put_con w i {| hc_v := v; hc_in := a; hc_con := hc_con o |})
       (bind (update_jac_scales (view_con w o')) update_hess_scales).
(** nlp.py:156-158 [set_con_scales] *)
Definition hset_con_scales (w : world) (i a : nat) : result world :=
  let o := w_con w i in
  let o' := {| hc_v := hc_v o; hc_in := hc_in o; hc_con := a |} in
  fmap (fun v => put_con w i {| hc_v := v; hc_in := hc_in o; hc_con := a |}) (update_jac_scales (view_con w o')).
(** nlp.py:377-387 [BaseObjective.set_input_scales] *)
Definition hobj_set_input_scales (w : world) (i a : nat) : result world :=
  let o' := {| ho_v := ho_v (w_obj w i); ho_in := a |} in
  fmap (fun v => put_obj w i {| ho_v := v; ho_in := a |}) (obj_update_hess_scales (view_obj w o')).

(** nlp.py:704-719 [add_constraints]: the object itself is stored, and told to use the problem's own array *)
Definition hadd_constraints (w : world) (k : nat) (name : string) (i : nat) : result world :=
  let p := w_prob w k in
  if dmem name (hp_cons p) then Raise ValueError
  else if negb (Nat.eqb (c_nin (hc_v (w_con w i))) (hp_n p)) then Raise ValueError
  else fmap (fun w' => put_prob w' k (hp_set_cons p (dset name i (hp_cons p)))) (hset_input_scales w i (hp_scales p)).
(** nlp.py:721-723 [delete_constraints] *)
Definition hdelete_constraints (w : world) (k : nat) (name : string) : result world :=
  let p := w_prob w k in
  if dmem name (hp_cons p) then Ok (put_prob w k (hp_set_cons p (ddel name (hp_cons p)))) else Raise KeyError.
(** nlp.py:725-744 [add_objective] *)
Definition hadd_objective (w : world) (k : nat) (name : string) (i : nat) : result world :=
  let p := w_prob w k in
  if dmem name (hp_objs p) then Raise NameError
  else fmap (fun w' => put_prob w' k (hp_set_objs p (dset name i (hp_objs p)))) (hobj_set_input_scales w i (hp_scales p)).
(** nlp.py:746-747 [delete_objective] *)
Definition hdelete_objective (w : world) (k : nat) (name : string) : result world :=
  let p := w_prob w k in
  if dmem name (hp_objs p) then Ok (put_prob w k (hp_set_objs p (ddel name (hp_objs p)))) else Raise KeyError.

(** scaled_mesh_ocp.py:678-684, model_solver.py:183-187: the array of the problem is pushed into every objective, then into every constraint *)
Definition push (w : world) (k : nat) : result world :=
  let p := w_prob w k in
  bind (foldM (fun w ko => hobj_set_input_scales w (snd ko) (hp_scales p)) (hp_objs p) w) (fun w1 =>
  foldM (fun w kc => hset_input_scales w (snd kc) (hp_scales p)) (hp_cons p) w1).
(** scaled_mesh_ocp.py:669-684: the scales are written to a new array, which replaces the old one *)
Definition scale_new (w : world) (k : nat) (s : list R) : result world :=
  let w1 := new_arr w s in push (put_prob w1 k (hp_set_scales (w_prob w k) (w_na w))) k.
(** model_solver.py:177-187: the scales are written into the array that the problem has *)
Definition scale_in_place (w : world) (k : nat) (s : list R) : result world :=
  push (put_arr w (hp_scales (w_prob w k)) s) k.
(** scaled_mesh_ocp.py:700-722, model_solver.py:169-175: the scales of one constraint of a problem, in a new array *)
Definition con_scale_new (w : world) (k : nat) (name : string) (s : list R) : result world :=
  bind (lookup_err name (hp_cons (w_prob w k))) (fun i => hset_con_scales (new_arr w s) i (w_na w)).
(** the same with an array of the user *)
Definition con_scale_user (w : world) (k : nat) (name : string) (u : nat) : result world :=
  bind (lookup_err name (hp_cons (w_prob w k))) (fun i => hset_con_scales w i (w_user w u)).
(** nlp.py:884-886 [set_default_scales]: nothing is pushed *)
Definition default_scales (w : world) (k : nat) : world :=
  put_prob (new_arr w (ones (hp_n (w_prob w k)))) k (hp_set_scales (w_prob w k) (w_na w)).

(** what the user's program can do *)
Inductive call : Type :=
| NewArray (l : list R)                          (* a = np.array(l) *)
| WriteArray (u : nat) (l : list R)              (* a[:] = l *)
| NewCon (v : bcon) | NewObj (v : bobj) | NewProb (n : nat)
| ConScalesOf (i u : nat)                        (* c.set_con_scales(a) *)
| InScalesOf (i u : nat)                         (* c.set_input_scales(a) *)
| AddCon (k : nat) (name : string) (i : nat) | DelCon (k : nat) (name : string)
| AddObj (k : nat) (name : string) (i : nat) | DelObj (k : nat) (name : string)
| ScaleNew (k : nat) (s : list R) | ScaleInPlace (k : nat) (s : list R)
| ConScaleNew (k : nat) (name : string) (s : list R) | ConScaleUser (k : nat) (name : string) (u : nat)
| DefaultScales (k : nat)
| HessStructure (k : nat) | Hessian (k : nat) (x lam : list R) (f : R).

Definition guard {A} (b : bool) (r : result A) : result A := if b then r else Raise NameError.
Definition hcall (w : world) (c : call) : result world :=
  match c with
  | NewArray l => Ok (new_user w l)
  | WriteArray u l => guard (Nat.ltb u (w_nu w)) (Ok (put_arr w (w_user w u) l))
  | NewCon v => Ok (new_con w v)
  | NewObj v => Ok (new_obj w v)
  | NewProb n => Ok (new_prob w n)
  | ConScalesOf i u => guard (Nat.ltb i (w_nc w) && Nat.ltb u (w_nu w)) (hset_con_scales w i (w_user w u))
  | InScalesOf i u => guard (Nat.ltb i (w_nc w) && Nat.ltb u (w_nu w)) (hset_input_scales w i (w_user w u))
  | AddCon k n i => guard (Nat.ltb k (w_np w) && Nat.ltb i (w_nc w)) (hadd_constraints w k n i)
  | DelCon k n => guard (Nat.ltb k (w_np w)) (hdelete_constraints w k n)
  | AddObj k n i => guard (Nat.ltb k (w_np w) && Nat.ltb i (w_no w)) (hadd_objective w k n i)
  | DelObj k n => guard (Nat.ltb k (w_np w)) (hdelete_objective w k n)
  | ScaleNew k s => guard (Nat.ltb k (w_np w)) (scale_new w k s)
  | ScaleInPlace k s => guard (Nat.ltb k (w_np w)) (scale_in_place w k s)
  | ConScaleNew k n s => guard (Nat.ltb k (w_np w)) (con_scale_new w k n s)
  | ConScaleUser k n u => guard (Nat.ltb k (w_np w) && Nat.ltb u (w_nu w)) (con_scale_user w k n u)
  | DefaultScales k => guard (Nat.ltb k (w_np w)) (Ok (default_scales w k))
  | HessStructure k => guard (Nat.ltb k (w_np w))
      (Ok (put_prob w k (hp_set_triu (w_prob w k) (p_triu (fst (prob_hessianstructure (view_prob w (w_prob w k))))))))
  | Hessian k x lam f => guard (Nat.ltb k (w_np w))
      (Ok (put_prob w k (hp_set_triu (w_prob w k) (p_triu (fst (prob_hessian (view_prob w (w_prob w k)) x lam f))))))
  end.
Definition no_con : bcon := {| c_nin := 0; c_ncon := 0; c_f := fun x => x; c_j := fun x => x; c_h := fun x _ => x; c_jr := []; c_jc := []; c_hr := []; c_hc := [];
  c_in := []; c_con := []; c_js := []; c_hs := [] |}.
Definition no_obj : bobj := {| o_nin := 0; o_f := fun _ => 0; o_g := fun x => x; o_h := fun x => x; o_hr := []; o_hc := []; o_in := []; o_hs := [] |}.
Definition start : world :=
  {| w_arr := fun _ => []; w_na := 0; w_con := fun _ => {| hc_v := no_con; hc_in := 0; hc_con := 0 |}; w_nc := 0; w_obj := fun _ => {| ho_v := no_obj; ho_in := 0 |}; w_no := 0;
     w_prob := fun _ => {| hp_n := 0; hp_cons := []; hp_objs := []; hp_triu := None; hp_scales := 0 |}; w_np := 0; w_user := fun _ => 0%nat; w_nu := 0 |}.
Definition hrun (cs : list call) : result world := foldM hcall cs start.
Definition problems (w : world) : list prob := map (fun k => view_prob w (w_prob w k)) (seq 0 (w_np w)).
