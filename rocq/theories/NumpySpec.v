(** Specification vocabulary for backend selection and mapping. *)
From Verif Require Import Base RBase NumpyModel.

Definition valid (b : string) : Prop := In b ["jax"; "numpy"; "casadi"].
(** programs that only use fresh [with use_backend(b)] blocks (no object created before it is entered, no decorator) *)
Fixpoint fresh_blocks (p : prog) : Prop :=
  match p with
  | Skip | Observe | Throw | SetB _ => True
  | Seq p q | Try p q => fresh_blocks p /\ fresh_blocks q
  | Repeat _ p | With _ p => fresh_blocks p
  | New _ _ | WithObj _ _ => False
  end.
(** The intended, lexical meaning: [means b p o b' e]: started with backend [b], [p] observes the backends [o], leaves backend [b'] behind and raises iff [e].
    A block runs its body under its own backend (if the name is valid) and gives back the one before it, however it is left. *)
Inductive means : string -> prog -> list string -> string -> bool -> Prop :=
| M_skip b : means b Skip [] b false
| M_observe b : means b Observe [b] b false
| M_throw b : means b Throw [] b true
| M_set_valid b n : valid n -> means b (SetB n) [] n false
| M_set_invalid b n : ~ valid n -> means b (SetB n) [] b false
| M_seq b p q o1 b1 o2 b2 e : means b p o1 b1 false -> means b1 q o2 b2 e -> means b (Seq p q) (o1 ++ o2) b2 e
| M_seq_raise b p q o1 b1 : means b p o1 b1 true -> means b (Seq p q) o1 b1 true
| M_try b p q o1 b1 : means b p o1 b1 false -> means b (Try p q) o1 b1 false
| M_try_raise b p q o1 b1 o2 b2 e : means b p o1 b1 true -> means b1 q o2 b2 e -> means b (Try p q) (o1 ++ o2) b2 e
| M_repeat0 b p : means b (Repeat 0 p) [] b false
| M_repeat b p n o1 b1 o2 b2 e : means b p o1 b1 false -> means b1 (Repeat n p) o2 b2 e -> means b (Repeat (S n) p) (o1 ++ o2) b2 e
| M_repeat_raise b p n o1 b1 : means b p o1 b1 true -> means b (Repeat (S n) p) o1 b1 true
| M_with_valid b n p o b1 e : valid n -> means n p o b1 e -> means b (With n p) o b e
| M_with_invalid b n p o b1 e : ~ valid n -> means b p o b1 e -> means b (With n p) o b e.

Section Maps.
Context {A P : Type}.
(** the arguments of sample [i]: mapped ones at [i], the others whole *)
Inductive at_sample (i : nat) : list (arg A P) -> list bool -> list (sarg A P) -> Prop :=
| AS_nil : at_sample i [] [] []
| AS_mapped l v args ax s : nth_error l i = Some v -> at_sample i args ax s -> at_sample i (Arr l :: args) (true :: ax) (Elem v :: s)
| AS_whole a args ax s : at_sample i args ax s -> at_sample i (a :: args) (false :: ax) (Whole a :: s).
End Maps.
