(** Model of lumos/models/test_utils.py: the explicit Euler rollout and the decorator that runs a test under several backends. *)
From Verif Require Import Base RBase NumpyModel.
Import ListNotations.
Open Scope R_scope.

Section Roll.
(** [fwd states inputs mesh] is the model's forward: the state derivatives and the outputs *)
Variable fwd : dict R -> dict R -> R -> result (dict R * dict R).
Variables (inputs : dict R) (time_step : R).
(** test_utils.py:178-180, for one entry of [states] *)
Definition bump (states_dot : dict R) (kv : string * R) : result (string * R) := bind (lookup_err (fst kv) states_dot) (fun d => Ok (fst kv, snd kv + d * time_step)).
(** test_utils.py:177-180: the steps; [last] are the outputs of the latest call ([model_return] is unbound before the first one) *)
Fixpoint roll_steps (steps : list nat) (states : dict R) (last : option (dict R)) : result (dict R * option (dict R)) :=
  match steps with
  | [] => Ok (states, last)
  | k :: r => bind (fwd states inputs (INR k * time_step)) (fun so => bind (mapM (bump (fst so)) states) (fun s' => roll_steps r s' (Some (snd so))))
  end.
(** test_utils.py:172-182 [_forward_euler]; reading the unbound [model_return] is an UnboundLocalError, which is a NameError.  The numbers are floats: [+=] makes new ones *)
Definition roll (init_states : dict R) (num_steps : nat) : result (dict R * dict R) :=
  bind (roll_steps (seq 0 num_steps) init_states None) (fun sl => match snd sl with Some out => Ok (fst sl, out) | None => Raise NameError end).

(** ** the same function when the states are numpy arrays: a value is a cell, [dict(init_states)] copies the dictionary but not the cells, and [+=] writes into the cell *)
Definition heap := nat -> R.
Definition put (c : nat) (v : R) (h : heap) : heap := fun c' => if Nat.eqb c' c then v else h c'.
Definition read (h : heap) (states : dict nat) : dict R := map (fun kc => (fst kc, h (snd kc))) states.
(** test_utils.py:179-180 *)
Definition bump_cell (states_dot : dict R) (h : heap) (kc : string * nat) : result heap := bind (lookup_err (fst kc) states_dot) (fun d => Ok (put (snd kc) (h (snd kc) + d * time_step) h)).
(** test_utils.py:177-180 *)
Fixpoint roll_cells (steps : list nat) (states : dict nat) (h : heap) (last : option (dict R)) : result (heap * option (dict R)) :=
  match steps with
  | [] => Ok (h, last)
  | k :: r => bind (fwd (read h states) inputs (INR k * time_step)) (fun so => bind (foldM (bump_cell (fst so)) states h) (fun h' => roll_cells r states h' (Some (snd so))))
  end.
(** test_utils.py:172-182: the states and outputs that are returned, and the heap that is left *)
Definition roll_arrays (init_states : dict nat) (num_steps : nat) (h : heap) : result (heap * (dict nat * dict R)) :=
  bind (roll_cells (seq 0 num_steps) init_states h None) (fun hl => match snd hl with Some out => Ok (fst hl, (init_states, out)) | None => Raise NameError end).
End Roll.

(** ** use_backends.  A test body gets the backend in force and leaves another one (it may change it), with what happened *)
Inductive outcome := Passed | Failed | Errored.
(** what the sub-test reports: an assertion failure as it is, any other exception wrapped in one that names the backend *)
Inductive report := Pass | Fail | ErrorWith (backend : string).
(** test_utils.py:36-61: one round of the loop, for the backend [b].  [self.subTest] records an exception and goes on (simplification: unittest's failfast option is off) *)
Definition sub_test (fn : string -> string * outcome) (original cur b : string) : string * (string * report) :=
  let ran := set_backend cur b in
  let (left, out) := fn ran in
  (set_backend left original, (ran, match out with Passed => Pass | Failed => Fail | Errored => ErrorWith b end)).
Fixpoint sub_tests (fn : string -> string * outcome) (original cur : string) (bs : list string) : string * list (string * report) :=
  match bs with
  | [] => (cur, [])
  | b :: r => let (c1, x) := sub_test fn original cur b in let (c2, xs) := sub_tests fn original c1 r in (c2, x :: xs)
  end.
(** test_utils.py:17-63 [use_backends]: the backend afterwards, and for each sub-test the backend it ran under and its report *)
Definition use_backends (bs : list string) (fn : string -> string * outcome) (cur : string) : string * list (string * report) := sub_tests fn cur cur bs.
