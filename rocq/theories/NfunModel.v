(** Model of the abstract problem class NLPFunction (nlp.py:452-511): objective and constraints are given by a
    subclass and may use attributes of the object; the derivatives are jitted with the object as a static
    argument, so each is traced when it is first called with arguments of new shapes and the trace is kept
    for that object (identified by itself: no __eq__ or __hash__ of its own).

    Simplified: all arrays hold floats (shapes make the signature); the values of jax.grad, jax.jacobian and
    jax.hessian are oracles; floating point is exact. *)
From Verif Require Import Base RBase.

Section N.
(** attributes of the object *)
Variable At : Type.
(** the subclass: [_compute_objective], [constraints], [num_dec] (which NLPFunction itself does not define) *)
Variable obj : At -> list R -> R.
Variable con : At -> list R -> list R.
Variable num_dec : At -> result nat.
(** jax.grad, jax.jacobian, jax.hessian *)
Variable grad : (list R -> R) -> list R -> nat -> R.
Variable jacobian : (list R -> list R) -> list R -> nat -> nat -> R.
Variable hessian : (list R -> R) -> list R -> nat -> nat -> R.

(** the jitted functions with the shapes of their arguments *)
Inductive key := KGrad (n : nat) | KJac (n : nat) | KHess (n m : nat).
Definition key_eqb (a b : key) : bool :=
  match a, b with
  | KGrad n, KGrad n' => Nat.eqb n n'
  | KJac n, KJac n' => Nat.eqb n n'
  | KHess n m, KHess n' m' => (Nat.eqb n n' && Nat.eqb m m')%bool
  | _, _ => false
  end.

(** nlp.py:449 [_last_iter_dec_var]: None, an array, or the tracer of a trace that is over *)
Inductive last := LNone | LVal (x : list R) | LTracer.

Record nobj := { n_at : At; n_traces : list (key * At); n_last : last }.

Fixpoint trace_of (k : key) (l : list (key * At)) : option At :=
  match l with [] => None | (k', s) :: r => if key_eqb k k' then Some s else trace_of k r end.

Inductive value := VNum (r : R) | VVec (v : list R) | VMat (m : list (list R)) | VIdx (r c : list nat) | VLast (l : last) | VUnit.

(** nlp.py:508-511 [hessianstructure]: np.triu_indices(self.num_dec) *)
Definition triu_rows (n : nat) : list nat := flat_map (fun i => map (fun _ => i) (seq i (n - i))) (seq 0 n).
Definition triu_cols (n : nat) : list nat := flat_map (fun i => seq i (n - i)) (seq 0 n).

(** nlp.py:487-494 [lagrangian] *)
Definition lagrangian (s : At) (x lagrange : list R) (f : R) : R := f * obj s x + vdot lagrange (con s x).

(** nlp.py:475-478 [gradient], nlp.py:483-485 [jacobian], nlp.py:496-506 [hessian]: the traced functions of
    an object with the attributes s. Indices beyond a jax array are clamped. *)
Definition gradient_at (s : At) (x : list R) : list R := map (grad (obj s) x) (seq 0 (List.length x)).
Definition jacobian_at (s : At) (x : list R) : list (list R) :=
  map (fun i => map (jacobian (con s) x i) (seq 0 (List.length x))) (seq 0 (List.length (con s x))).
Definition clamp (n i : nat) : nat := Nat.min i (n - 1).
Definition hessian_at (s : At) (nd : nat) (x lam : list R) (f : R) : list R :=
  let h := hessian (fun y => lagrangian s y lam f) x in
  map2 (fun i j => h (clamp (List.length x) i) (clamp (List.length x) j)) (triu_rows nd) (triu_cols nd).

Inductive act :=
| SetAttr (g : At -> At)
| Objective (x : list R)
| Gradient (x : list R)
| Constraints (x : list R)
| Jacobian (x : list R)
| Structure
| Hessian (x lam : list R) (f : R)
| LastIter.

Definition with_trace (o : nobj) (k : key) (s : At) : nobj := {| n_at := n_at o; n_traces := (k, s) :: n_traces o; n_last := n_last o |}.
Definition with_last (o : nobj) (l : last) : nobj := {| n_at := n_at o; n_traces := n_traces o; n_last := l |}.

Definition nd_or (s : At) : nat := match num_dec s with Ok n => n | Raise _ => 0%nat end.

(** nlp.py:455-464 [objective] stores its argument; the lagrangian calls it (493), so a trace of the hessian
    stores a tracer. jnp.dot of vectors of different lengths is a TypeError, found while tracing. *)
Definition step (o : nobj) (a : act) : nobj * result value :=
  match a with
  | SetAttr g => ({| n_at := g (n_at o); n_traces := n_traces o; n_last := n_last o |}, Ok VUnit)
  | Objective x => (with_last o (LVal x), Ok (VNum (obj (n_at o) x)))
  | Gradient x =>
      let k := KGrad (List.length x) in
      match trace_of k (n_traces o) with
      | Some s => (o, Ok (VVec (gradient_at s x)))
      | None => (with_trace o k (n_at o), Ok (VVec (gradient_at (n_at o) x)))
      end
  | Constraints x => (o, Ok (VVec (con (n_at o) x)))
  | Jacobian x =>
      let k := KJac (List.length x) in
      match trace_of k (n_traces o) with
      | Some s => (o, Ok (VMat (jacobian_at s x)))
      | None => (with_trace o k (n_at o), Ok (VMat (jacobian_at (n_at o) x)))
      end
  | Structure => (o, fmap (fun n => VIdx (triu_rows n) (triu_cols n)) (num_dec (n_at o)))
  | Hessian x lam f =>
      let k := KHess (List.length x) (List.length lam) in
      match trace_of k (n_traces o) with
      | Some s => (o, Ok (VVec (hessian_at s (nd_or s) x lam f)))
      | None =>
          let o1 := with_last o LTracer in
          if Nat.eqb (List.length lam) (List.length (con (n_at o) x)) then
            match num_dec (n_at o) with
            | Ok n => (with_trace o1 k (n_at o), Ok (VVec (hessian_at (n_at o) n x lam f)))
            | Raise e => (o1, Raise e)
            end
          else (o1, Raise TypeError)
      end
  | LastIter => (o, Ok (VLast (n_last o)))
  end.

Fixpoint run (o : nobj) (h : list act) : list (result value) :=
  match h with [] => [] | a :: r => snd (step o a) :: run (fst (step o a)) r end.
(** a new object *)
Definition new (s : At) : nobj := {| n_at := s; n_traces := []; n_last := LNone |}.
End N.
Arguments SetAttr {At} g.
Arguments Objective {At} x.
Arguments Gradient {At} x.
Arguments Constraints {At} x.
Arguments Jacobian {At} x.
Arguments Structure {At}.
Arguments Hessian {At} x lam f.
Arguments LastIter {At}.
