(** C69: the same calls when nothing is shared: arrays, constraints and objectives are values, a problem gets a copy of what is added to it and of the scales it
    is given.  The calls on one problem are the functions of NlpModel, about which the other properties (C01, C02, C17, C18, ...) are stated.  Nothing of AliasModel but the type of calls is used. *)
From Verif Require Import Base RBase NlpModel AliasModel.

Record values := { v_arr : list (list R); v_con : list bcon; v_obj : list bobj; v_prob : list prob }.
Definition pick {A} (l : list A) (i : nat) : result A := match nth_error l i with Some x => Ok x | None => Raise NameError end.
Fixpoint replace {A} (l : list A) (i : nat) (x : A) : list A :=
  match l, i with [], _ => [] | _ :: r, O => x :: r | y :: r, S j => y :: replace r j x end.
Definition on_prob (v : values) (k : nat) (f : prob -> result prob) : result values :=
  bind (pick (v_prob v) k) (fun p => bind (f p) (fun p' => Ok {| v_arr := v_arr v; v_con := v_con v; v_obj := v_obj v; v_prob := replace (v_prob v) k p' |})).
Definition on_con (v : values) (i : nat) (f : bcon -> result bcon) : result values :=
  bind (pick (v_con v) i) (fun c => bind (f c) (fun c' => Ok {| v_arr := v_arr v; v_con := replace (v_con v) i c'; v_obj := v_obj v; v_prob := v_prob v |})).
(** new scales for one constraint of a problem *)
Definition scale_one (p : prob) (name : string) (s : list R) : result prob :=
  bind (lookup_err name (p_cons p)) (fun c => bind (set_con_scales c s) (fun c' => Ok (NlpModel.set_cons p (dset name c' (p_cons p))))).
(** "the decision variables are unscaled": only what the problem itself knows changes *)
Definition unscale (p : prob) : prob :=
  {| p_n := p_n p; p_cons := p_cons p; p_objs := p_objs p; p_triu := p_triu p; p_scales := ones (p_n p) |}.

Definition vcall (v : values) (c : call) : result values :=
  match c with
  | NewArray l => Ok {| v_arr := v_arr v ++ [l]; v_con := v_con v; v_obj := v_obj v; v_prob := v_prob v |}
  | WriteArray u l => bind (pick (v_arr v) u) (fun _ => Ok {| v_arr := replace (v_arr v) u l; v_con := v_con v; v_obj := v_obj v; v_prob := v_prob v |})
  | NewCon x => Ok {| v_arr := v_arr v; v_con := v_con v ++ [x]; v_obj := v_obj v; v_prob := v_prob v |}
  | NewObj x => Ok {| v_arr := v_arr v; v_con := v_con v; v_obj := v_obj v ++ [x]; v_prob := v_prob v |}
  | NewProb n => Ok {| v_arr := v_arr v; v_con := v_con v; v_obj := v_obj v; v_prob := v_prob v ++ [make_prob n] |}
  | ConScalesOf i u => bind (pick (v_con v) i) (fun _ => bind (pick (v_arr v) u) (fun s => on_con v i (fun c => set_con_scales c s)))
  | InScalesOf i u => bind (pick (v_con v) i) (fun _ => bind (pick (v_arr v) u) (fun s => on_con v i (fun c => set_input_scales c s)))
  | AddCon k n i => bind (pick (v_prob v) k) (fun _ => bind (pick (v_con v) i) (fun c => on_prob v k (fun p => add_constraints p n c)))
  | DelCon k n => on_prob v k (fun p => delete_constraints p n)
  | AddObj k n i => bind (pick (v_prob v) k) (fun _ => bind (pick (v_obj v) i) (fun o => on_prob v k (fun p => add_objective p n o)))
  | DelObj k n => on_prob v k (fun p => delete_objective p n)
  | ScaleNew k s | ScaleInPlace k s => on_prob v k (fun p => set_dec_var_scales p s)
  | ConScaleNew k n s => on_prob v k (fun p => scale_one p n s)
  | ConScaleUser k n u => bind (pick (v_prob v) k) (fun _ => bind (pick (v_arr v) u) (fun s => on_prob v k (fun p => scale_one p n s)))
  | DefaultScales k => on_prob v k (fun p => Ok (unscale p))
  | HessStructure k => on_prob v k (fun p => Ok (fst (prob_hessianstructure p)))
  | Hessian k x lam f => on_prob v k (fun p => Ok (fst (prob_hessian p x lam f)))
  end.
Definition vrun (cs : list call) : result values := foldM vcall cs {| v_arr := []; v_con := []; v_obj := []; v_prob := [] |}.

(** Programs in which sharing cannot be noticed: an object is given to a problem at most once and its own setters are not called after that; an array is not
    written to after it was handed over.  The accumulators are the constraints and objectives that were added and the arrays that were handed over. *)
Fixpoint careful (cons objs arrs : list nat) (cs : list call) : Prop :=
  match cs with
  | [] => True
  | AddCon _ _ i :: r => ~ In i cons /\ careful (i :: cons) objs arrs r
  | AddObj _ _ i :: r => ~ In i objs /\ careful cons (i :: objs) arrs r
  | ConScalesOf i u :: r | InScalesOf i u :: r => ~ In i cons /\ careful cons objs (u :: arrs) r
  | ConScaleUser _ _ u :: r => careful cons objs (u :: arrs) r
  | WriteArray u _ :: r => ~ In u arrs /\ careful cons objs arrs r
  | _ :: r => careful cons objs arrs r
  end.

(** The problem a call is made on *)
Definition touches (c : call) : option nat :=
  match c with
  | AddCon k _ _ | DelCon k _ | AddObj k _ _ | DelObj k _ | ScaleNew k _ | ScaleInPlace k _ | ConScaleNew k _ _ | ConScaleUser k _ _ | DefaultScales k | HessStructure k
  | Hessian k _ _ _ => Some k
  | _ => None
  end.
(** the scales of the derivatives, entry by entry *)
Definition derived (c : bcon) : Prop :=
  c_js c = map2 (fun r q => vget r (c_con c) / vget q (c_in c)) (c_jr c) (c_jc c) /\ c_hs c = map2 (fun r q => 1 / (vget r (c_in c) * vget q (c_in c))) (c_hr c) (c_hc c).
(** a problem whose pieces work in the variables of the problem, and whose derivative scales are those of the current scales *)
Definition in_sync (p : prob) : Prop :=
  (forall n c, In (n, c) (p_cons p) -> c_in c = p_scales p /\ derived c) /\
  (forall n o, In (n, o) (p_objs p) -> o_in o = p_scales p /\ o_hs o = map2 (fun r q => 1 / (vget r (o_in o) * vget q (o_in o))) (o_hr o) (o_hc o)).
Definition no_reset (cs : list call) : Prop := Forall (fun c => match c with DefaultScales _ => False | _ => True end) cs.
