(** Specification vocabulary for the logging of iterations. *)
From Verif Require Import Base RBase LogModel.
From Coq Require Export Sorting.Permutation Sorting.Sorted.

(** the callbacks that count: a repeated callback in normal mode with the number of the last one is ignored.  Each with the point evaluated last. *)
Fixpoint recorded (prev : option nat) (cur : option (list R)) (es : list event) : list (metric * option (list R)) :=
  match es with
  | [] => []
  | EObj x :: r => recorded prev (Some x) r
  | ECall m :: r => if (Nat.eqb (m_alg m) 0 && match prev with Some n => Nat.eqb (m_iter m) n | None => false end)%bool then recorded prev cur r else (m, cur) :: recorded (Some (m_iter m)) cur r
  end.
(** the point evaluated last *)
Fixpoint last_point (cur : option (list R)) (es : list event) : option (list R) := match es with [] => cur | EObj x :: r => last_point (Some x) r | ECall _ :: r => last_point cur r end.
(** the point of the last record of iteration [i] *)
Fixpoint point_at (i : nat) (l : list (metric * option (list R))) (d : option (list R)) : option (list R) :=
  match l with [] => d | (m, x) :: r => point_at i r (if Nat.eqb (m_iter m) i then x else d) end.
(** iteration numbers of the records *)
Definition iters (l : list (metric * option (list R))) : list nat := map (fun r => m_iter (fst r)) l.
(** all points that are evaluated *)
Definition points (es : list event) : list (list R) := flat_map (fun e => match e with EObj x => [x] | _ => [] end) es.
(** the iteration numbers the solver reports: it starts at 0 and every callback repeats the number or increases it by one *)
Fixpoint counts_from (n : nat) (l : list nat) : Prop := match l with [] => True | i :: r => (i = n \/ i = S n) /\ counts_from i r end.
Definition solver_counts (l : list nat) : Prop := match l with [] => False | i :: r => i = 0%nat /\ counts_from 0 r end.
Definition call_counts (es : list event) : list nat := flat_map (fun e => match e with ECall m => [m_iter m] | _ => [] end) es.
(** a directory listing: some order of the files *)
Definition listing (glob : list (nat * list row) -> list (nat * list row)) : Prop := forall l, Permutation (glob l) l.
