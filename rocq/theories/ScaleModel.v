(** Model of [set_scales]: lumos/optimal_control/scaled_mesh_ocp.py:640-722, config.py:43-48. *)
From Verif Require Import Base RBase TreeModel UtilsModel CollocModel MeshModel OcpModel.

(** config.py:43-48 [ScaleConfig] (values are not checked) *)
Record scale_config := { sc_g : string; sc_n : string; sc_v : R }.

(** the scale vectors kept by the problem *)
Record sst := {
  s_dec : list R;        (* self._dec_var_scales *)
  s_pushed : list R;     (* the input scales last given to every objective and constraint *)
  s_alg : list R;        (* constraint scales of "model_algebra" *)
  s_cont : list R;       (* constraint scales of "continuity" (full problem only) *)
}.

(** x[idx] = v for an array (or scalar) of indices *)
Definition fill (idx : list nat) (v : R) (x : list R) : list R := fold_left (fun acc i => upd i v acc) idx x.

(** scaled_mesh_ocp.py:664-668: one vector of ones for each implicit input group, and one for the globals *)
Definition init_var_scales (o : ocp) : dict (list R) :=
  map (fun g => (g, ones (group_size (oc_op o) g))) implicit_inputs ++ [("global", ones (num_global_var (oc_op o)))].

(** scaled_mesh_ocp.py:674-678: the loop over the configs; on an exception the vectors keep what was written so far *)
Fixpoint apply_scales (o : ocp) (scs : list scale_config) (vs : dict (list R)) (ds : list R) : (dict (list R) * list R) * result unit :=
  match scs with
  | [] => ((vs, ds), Ok tt)
  | sc :: r =>
      match dget (sc_g sc) vs with
      | None => ((vs, ds), Raise KeyError)
      | Some v =>
          match index_in_group (oc_op o) (sc_g sc) (sc_n sc) with
          | Raise e => ((vs, ds), Raise e)
          | Ok i =>
              let vs' := dset (sc_g sc) (upd i (sc_v sc) v) vs in
              match index_all (oc_op o) (sc_g sc) (sc_n sc) with
              | Raise e => ((vs', ds), Raise e)
              | Ok idx => apply_scales o r vs' (fill idx (sc_v sc) ds)
              end
          end
      end
  end.

Definition vs_get (g : string) (vs : dict (list R)) : list R := match dget g vs with Some v => v | None => [] end.

(** scaled_mesh_ocp.py:640-722 [set_scales].
    [np.tile(v, (n, m-1, 1))] raveled is n*(m-1) copies of v; pushing to objectives and constraints is [NlpModel.set_dec_var_scales] (C17, C18) *)
Definition set_scales (o : ocp) (condensed : bool) (s : sst) (scs : list scale_config) : sst * result unit :=
  let op := oc_op o in
  match apply_scales o scs (init_var_scales o) (ones (num_dec op)) with
  | ((_, ds), Raise e) => ({| s_dec := ds; s_pushed := s_pushed s; s_alg := s_alg s; s_cont := s_cont s |}, Raise e)
  | ((vs, ds), Ok _) =>
      let cont := concat (repeat (vs_get "states" vs) (num_intervals o * (nspi op - 1))) in
      let alg := if condensed
        then cont ++ concat (repeat (vs_get "con_outputs" vs ++ ones (oc_nres o)) (num_stages op))
        else concat (repeat (vs_get "states" vs ++ vs_get "con_outputs" vs ++ ones (oc_nres o)) (num_stages op)) in
      ({| s_dec := ds; s_pushed := ds; s_alg := alg; s_cont := if condensed then s_cont s else cont |}, Ok tt)
  end.

(** nlp.py:884-886 default scales *)
Definition init_scales (o : ocp) : sst :=
  {| s_dec := ones (num_dec (oc_op o)); s_pushed := ones (num_dec (oc_op o)); s_alg := []; s_cont := [] |}.
(** a history of calls, some of which may raise *)
Definition srun (o : ocp) (condensed : bool) (h : list (list scale_config)) : sst :=
  fold_left (fun s scs => fst (set_scales o condensed s scs)) h (init_scales o).
