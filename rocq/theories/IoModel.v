(** Model of lumos/models/base.py: io names, named vectors, the submodel call protocol. *)
From Verif Require Import Base TreeModel UtilsModel.

(** ** io names *)
(** base.py:34-85: the direct names a class declares; [d_ss]: StateSpaceModel (otherwise a stateless Model, whose states/con_outputs are unused) *)
Record direct : Type := { d_ss : bool; d_states : list string; d_inputs : list string; d_outputs : list string; d_con : list string; d_res : list string }.
(** a model with its submodels, as far as names are concerned *)
Inductive mio : Type := MIO (d : direct) (subs : list (string * mio)).
Definition mio_direct (m : mio) := match m with MIO d _ => d end.
Definition mio_subs (m : mio) : dict mio := match m with MIO _ s => s end.

Definition prefixed (n k : string) : string := String.append n (String dot k).
(** base.py:152-191, 447-463 [_construct_io_names], [_collect_children_outputs] *)
Fixpoint outputs_of (m : mio) : list string :=
  match m with MIO d s => d_outputs d ++ flat_map (fun ns => map (prefixed (fst ns)) (outputs_of (snd ns))) s end.
(** base.py:167-178 [_collect_children_residuals] *)
Fixpoint residuals_of (m : mio) : list string :=
  match m with MIO d s => d_res d ++ flat_map (fun ns => map (prefixed (fst ns)) (residuals_of (snd ns))) s end.
Definition mem (n : string) (l : list string) : bool := existsb (String.eqb n) l.
(** base.py:465-474 [_check_names] of a StateSpaceModel, called at the end of its constructor; submodels are constructed (and checked) first *)
Fixpoint check_names (m : mio) : result unit :=
  match m with
  | MIO d s =>
      bind ((fix loop l := match l with [] => Ok tt | (_, sm) :: r => bind (check_names sm) (fun _ => loop r) end) s) (fun _ =>
      if negb (d_ss d) then Ok tt
      else if negb (forallb (fun c => mem c (outputs_of (MIO d s))) (d_con d)) then Raise ValueError
      else if negb (forallb (fun c => mem c (outputs_of (MIO d s))) (residuals_of (MIO d s))) then Raise ValueError
      else Ok tt)
  end.

(** ** named vectors *)
Section Vec.
Context {V : Type}.
(** base.py:365-377 [_check_keys] *)
Definition check_keys (names : list string) (given : list string) : result unit :=
  if forallb (fun n => mem n given) names then Ok tt else Raise KeyError.
(** base.py:379-382 [make_vector] *)
Definition make_vector (names : list string) (kw : dict V) : result (list V) :=
  bind (check_keys names (keys kw)) (fun _ => mapM (fun n => lookup_err n kw) names).
(** base.py:384-391 [make_dict] *)
Definition make_dict (names : list string) (kw : dict V) : result (dict V) :=
  bind (check_keys names (keys kw)) (fun _ => Ok kw).
(** base.py:27-31 [_array_to_dict] *)
Definition array_to_dict (names : list string) (vals : list V) : result (dict V) :=
  fmap (@dict_of_list V) (mapM (fun ni => match nth_error vals (snd ni) with Some v => Ok (fst ni, v) | None => Raise IndexError end) (combine names (seq 0 (List.length names)))).
(** base.py:393-395 [make_const_dict] *)
Definition make_const_dict (names : list string) (v : V) : dict V := dict_of_list (map (fun n => (n, v)) names).
End Vec.

(** base.py:292-297 [get_var_index] *)
Definition get_var_index (names : list string) (n : string) : result nat := match index_of n names with Some i => Ok i | None => Raise KeyError end.
(** the groups of the flat vector, base.py:420 [_implicit_inputs]; [nm] gives the names of a group *)
Definition flat_groups : list string := ["states"; "inputs"; "states_dot"; "con_outputs"].
Fixpoint offset_of (nm : string -> list string) (gs : list string) (g : string) : result nat :=
  match gs with
  | [] => Raise KeyError
  | h :: r => if String.eqb g h then Ok 0 else fmap (Nat.add (List.length (nm h))) (offset_of nm r g)
  end.
(** base.py:299-306 [get_var_index_in_flat]: [get_var_index] is evaluated first *)
Definition get_var_index_in_flat (nm : string -> list string) (g n : string) : result nat :=
  bind (get_var_index (nm g) n) (fun i => fmap (Nat.add i) (offset_of nm flat_groups g)).
(** base.py:308-313 [get_group_indices_in_flat] *)
Definition get_group_indices_in_flat (nm : string -> list string) (g : string) : result (list nat) := mapM (get_var_index_in_flat nm g) (nm g).
(** base.py:487-493 *)
Definition num_implicit_var (nm : string -> list string) : nat := List.length (flat_map nm flat_groups).
Definition num_implicit_res (nm : string -> list string) : nat := List.length (nm "states") + List.length (nm "con_outputs") + List.length (nm "residuals").
(** base.py:574-581 [_split_flat_vars]; np.split gives empty pieces past the end and puts what is left in the last piece *)
Definition split_flat {V} (nm : string -> list string) (x : list V) : dict (list V) :=
  combine flat_groups (split_sizes (map (fun g => List.length (nm g)) flat_groups) x).

(** ** submodel calls *)
Section Calls.
Context {V : Type}.
(** the submodels of the model: what [call_submodel] looks at *)
Inductive sm : Type := SM (ss : bool) (inputs states : list string) (subs : list (string * sm)).
Definition sm_subs (s : sm) : dict sm := match s with SM _ _ _ l => l end.
Fixpoint sm_walk (names : list string) (s : sm) : result sm :=
  match names with [] => Ok s | n :: r => match dget n (sm_subs s) with None => Raise KeyError | Some t => sm_walk r t end end.

(** base.py:193-202: the buffer: one slot per direct submodel *)
Definition buffer : Type := dict (option (dict V)).
Definition clear_buffer (root : sm) : buffer := map (fun nt => (fst nt, None)) (sm_subs root).

(** a call: the path, the keyword groups with the names supplied in each, and what the submodel's forward does if it is reached *)
Inductive cop := Call (name : string) (kwargs : dict (list string)) (outcome : result (dict V)) | Combine.

Definition check_group (kwargs : dict (list string)) (g : string) (names : list string) : result unit :=
  bind (lookup_err g kwargs) (check_keys names).
(** base.py:204-247 [call_submodel]: new buffer and result (the submodel's outputs) *)
Definition call_submodel (root : sm) (b : buffer) (name : string) (kwargs : dict (list string)) (outcome : result (dict V)) : buffer * result (dict V) :=
  match sm_walk (split dot name) root with
  | Raise e => (b, Raise e)
  | Ok (SM ss inputs states _) =>
      match dget name b with
      | None => (b, Raise KeyError)
      | Some (Some _) => (b, Raise RuntimeError)
      | Some None =>
          match bind (check_group kwargs "inputs" inputs) (fun _ => if ss then check_group kwargs "states" states else Ok tt) with
          | Raise e => (b, Raise e)
          | Ok _ => match outcome with Raise e => (b, Raise e) | Ok r => (dset name (Some r) b, Ok r) end
          end
      end
  end.
(** base.py:259-272: one turn of the loop of [_combine_submodel_outputs] *)
Definition comb_step (acc : dict V) (nr : string * option (dict V)) : result (dict V) :=
  match snd nr with None => Raise KeyError | Some r => Ok (dupdate acc (dict_of_list (map (fun kv => (prefixed (fst nr) (fst kv), snd kv)) r))) end.
(** base.py:249-279 [_combine_submodel_outputs] *)
Definition combine_outputs (root : sm) (b : buffer) : buffer * result (dict V) :=
  match foldM comb_step b [] with
  | Raise e => (b, Raise e)
  | Ok d => (clear_buffer root, Ok d)
  end.
Definition cstep (root : sm) (b : buffer) (op : cop) : buffer * result (dict V) :=
  match op with Call n kw o => call_submodel root b n kw o | Combine => combine_outputs root b end.
Definition crun (root : sm) (h : list cop) : buffer := fold_left (fun b op => fst (cstep root b op)) h (clear_buffer root).

(** base.py:397-402 [make_outputs_dict]: a keyword given twice is a TypeError *)
Definition make_outputs_dict (root : sm) (output_names : list string) (b : buffer) (kw : dict V) : buffer * result (dict V) :=
  match combine_outputs root b with
  | (b', Raise e) => (b', Raise e)
  | (b', Ok d) => (b', if existsb (fun k => mem k (keys d)) (keys kw) then Raise TypeError else make_dict output_names (kw ++ d))
  end.
End Calls.
Arguments buffer V : clear implicits.
Arguments cop V : clear implicits.
