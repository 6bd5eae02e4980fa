(** Model of the mesh part of lumos/optimal_control/scaled_mesh_ocp.py (472-574).
    Numbers are exact reals; boolean comparisons are decided by the order of the reals. *)
From Verif Require Import Base RBase CollocModel.

Definition rltb (a b : R) : bool := if Rlt_dec a b then true else false.
Definition rleb (a b : R) : bool := if Rle_dec a b then true else false.

(** [np.diff] *)
Fixpoint npdiff (l : list R) : list R :=
  match l with
  | a :: ((b :: _) as r) => (b - a) :: npdiff r
  | _ => []
  end.

(** [np.linspace(0, 1.0, n + 1)] *)
Definition linspace01 (n : nat) : list R := map (fun i => INR i / INR n) (seq 0 (n + 1)).

(** [isinstance(self.transcription, LGR)]: exactly the collocation classes carry interp_points
    (transcription.py:91-180; LGRIntegral derives from LGR) *)
Definition is_lgr (t : transcription) : bool := match t_points t with [] => false | _ => true end.

(** scaled_mesh_ocp.py:487-505 the checks, in order *)
Definition check_interval_points (n : nat) (p : list R) : result unit :=
  if negb (Nat.eqb (List.length p) (n + 1)) then Raise ValueError
  else if (rleb (1 / 1000000) (Rabs (nth 0 p 0)) || rleb (1 / 1000000) (Rabs (last p 0 - 1)))%bool then Raise ValueError
  else if negb (forallb (fun d => rltb 0 d) (npdiff p)) then Raise ValueError
  else Ok tt.

(** scaled_mesh_ocp.py:512-526 one interval *)
Definition interval_mesh (t : transcription) (p : list R) (i : nat) : list R :=
  if is_lgr t then
    map (fun q => nth i p 0 + q * (nth (i + 1) p 0 - nth i p 0)) (t_points t)
  else [nth i p 0; nth (i + 1) p 0].

(** scaled_mesh_ocp.py:472-528 [set_normalized_mesh]: the new value of
    [self._normalized_interval_mesh], or the exception (raised before anything is stored) *)
Definition make_mesh (n : nat) (t : transcription) (arg : option (list R)) : result (list (list R)) :=
  bind (match arg with
        | Some p => bind (check_interval_points n p) (fun _ => Ok p)
        | None => Ok (linspace01 n)
        end) (fun p => Ok (map (interval_mesh t p) (seq 0 n))).

(** the object before and after the call: attribute [_normalized_interval_mesh] and outcome *)
Definition set_normalized_mesh (n : nat) (t : transcription) (old : list (list R)) (arg : option (list R))
  : list (list R) * result unit :=
  match make_mesh n t arg with Ok m => (m, Ok tt) | Raise e => (old, Raise e) end.

(** scaled_mesh_ocp.py:530-539 [_flat_normalized_mesh]; np.hstack of nothing raises ValueError *)
Definition flat_mesh (mesh : list (list R)) : result (list R) :=
  match mesh with
  | [] => Raise ValueError
  | m0 :: rest => Ok (m0 ++ concat (map (@tl R) rest))
  end.

(** scaled_mesh_ocp.py:541-544 [_normalized_interval_length] *)
Definition interval_lengths (mesh : list (list R)) : list R :=
  map (fun m => last m 0 - hd 0 m) mesh.

(** scaled_mesh_ocp.py:573-583 [get_mesh_from_scale] *)
Definition mesh_from_scale (mesh : list (list R)) (scale : R) : result (list R) :=
  fmap (map (fun v => v * scale)) (flat_mesh mesh).
