(** Model of one state space model object shared by optimal control problems, and of what tracing does to
    it: jax.jit traces a function when it is first called with arguments of a new signature, and tracing
    runs the model's Python code, which stores the parameters it is given in the model
    (models/base.py:583-595, base.py:443-445, base.py:630-659 and scaled_mesh_ocp.py:78-150).

    Abstract: the arguments X of a function, parameter values P, results Y (an error may be a result),
    and for each of the model's functions k (constraints, jacobian, hessian, batched forward) its value
    [body k c x p] when run by Python with the constraint outputs c of the model and the parameters p.
    [sig k x p] is the signature (shapes, types, tree structure) under which jit caches a trace. *)
From Verif Require Import Base.

Section T.
Variables X P Y : Type.
Variable body : nat -> list string -> X -> P -> Y.
Variable sig : nat -> X -> P -> nat.

(** Parameters held by an object: values, or tracers of a trace that is over *)
Inductive pv := Val (p : P) | Tracer.

Inductive backend := Jax | Casadi | Custom.

(** The functions made by one call of base.py:630-659 [make_model_algebra_cons].
    - CasADi (base.py:780-886): compiled then, with the constraint outputs the model had then;
    - jax: the traces made so far, each with the constraint outputs the model had when it was traced
      (base.py:732-754, nlp.py:238-280);
    - custom: plain Python on the model object (base.py:756-778) *)
Inductive funs :=
| FCas (c : list string)
| FJax (traces : list ((nat * nat) * list string))
| FCustom.

(** the model object *)
Record mobj := { m_params : pv; m_con : list string; m_batch : option nat }.
(** a problem: its parameters (scaled_mesh_ocp.py:84) and its functions *)
Record prob := { p_params : pv; p_funs : nat }.
Record world := { w_model : mobj; w_funs : list funs; w_probs : list prob }.

Definition set_params (w : world) (p : pv) : world :=
  {| w_model := {| m_params := p; m_con := m_con (w_model w); m_batch := m_batch (w_model w) |};
     w_funs := w_funs w; w_probs := w_probs w |}.

Fixpoint find_trace (l : list ((nat * nat) * list string)) (k s : nat) : option (list string) :=
  match l with
  | [] => None
  | ((k', s'), c) :: r => if (Nat.eqb k k' && Nat.eqb s s')%bool then Some c else find_trace r k s
  end.

Fixpoint set_nth {B} (i : nat) (b : B) (l : list B) : list B :=
  match l, i with
  | [], _ => []
  | _ :: r, O => b :: r
  | a :: r, S j => a :: set_nth j b r
  end.

(** A call of function k of the functions number f, at x with parameters p.
    A tracer that is passed to a function after its trace: jax raises UnexpectedTracerError, numpy's
    conversion TracerArrayConversionError, both TypeErrors.
    jax (nlp.py:238-280, base.py:732-754): a known signature runs the trace; a new one runs the Python
    code, [self.set_recursive_params(params)] with tracers first (base.py:583-595 [_apply_and_flat_implicit], base.py:443-445), and nothing sets the
    parameters back. Custom: the Python code runs every time, with the values. *)
Definition call (w : world) (f k : nat) (x : X) (q : pv) : world * result Y :=
  match q with
  | Tracer => (w, Raise TypeError)
  | Val p =>
      match nth_error (w_funs w) f with
      | None => (w, Raise AttributeError)
      | Some (FCas c) => (w, Ok (body k c x p))
      | Some FCustom => (set_params w (Val p), Ok (body k (m_con (w_model w)) x p))
      | Some (FJax l) =>
          match find_trace l k (sig k x p) with
          | Some c => (w, Ok (body k c x p))
          | None =>
              let c := m_con (w_model w) in
              let w1 := set_params w Tracer in
              ({| w_model := w_model w1; w_funs := set_nth f (FJax (((k, sig k x p), c) :: l)) (w_funs w1); w_probs := w_probs w1 |},
               Ok (body k c x p))
          end
      end
  end.

(** What a user can do *)
Inductive act :=
| New (b : backend) (c : list string)   (* construct a problem on the model *)
| Eval (i k : nat) (x : X)               (* problem i evaluates its function k *)
| Batch (i : nat) (x : X)                (* problem i calls model.batched_forward: initial guess, logging *)
| Modify (i : nat) (g : P -> P)          (* modify_model_param *)
| SetModel (p : P)                       (* model.set_recursive_params *)
| Forward (x : X).                       (* the user calls model.forward *)

(** function number of the batched forward *)
Definition fwd : nat := 3.

(** scaled_mesh_ocp.py:78-150 [__init__] as far as the model goes: read the parameters (84), set the
    constraint outputs of the model (101), make the functions (123) and take the parameters as they were
    before (base.py:630-659 restores them). With CasADi, making the functions ravels the parameters with
    numpy, a TypeError for tracers; the constraint outputs are changed already.
    scaled_mesh_ocp.py:158-165 [_set_model_params], scaled_mesh_ocp.py:167-170 [modify_model_param],
    base.py:621-628 [batched_forward], base.py:476-480 [set_con_outputs]. *)
Definition act_step (w : world) (a : act) : world * result (option Y) :=
  match a with
  | New b c =>
      let m := w_model w in
      match b, m_params m with
      | Casadi, Tracer =>
          ({| w_model := {| m_params := Tracer; m_con := c; m_batch := m_batch m |}; w_funs := w_funs w; w_probs := w_probs w |},
           Raise TypeError)
      | _, q =>
          let f := List.length (w_funs w) in
          ({| w_model := {| m_params := q; m_con := c; m_batch := Some f |};
              w_funs := w_funs w ++ [match b with Casadi => FCas c | Jax => FJax [] | Custom => FCustom end];
              w_probs := w_probs w ++ [{| p_params := q; p_funs := f |}] |}, Ok None)
      end
  | Eval i k x =>
      match nth_error (w_probs w) i with
      | None => (w, Raise NameError)
      | Some o => let r := call w (p_funs o) k x (p_params o) in (fst r, fmap Some (snd r))
      end
  | Batch i x =>
      match nth_error (w_probs w) i, m_batch (w_model w) with
      | Some o, Some f => let r := call w f fwd x (p_params o) in (fst r, fmap Some (snd r))
      | Some _, None => (w, Raise AttributeError)
      | None, _ => (w, Raise NameError)
      end
  | Modify i g =>
      match nth_error (w_probs w) i with
      | None => (w, Raise NameError)
      | Some o =>
          let q := match p_params o with Val p => Val (g p) | Tracer => Tracer end in
          let w1 := {| w_model := w_model w; w_funs := w_funs w; w_probs := set_nth i {| p_params := q; p_funs := p_funs o |} (w_probs w) |} in
          (set_params w1 q, Ok None)
      end
  | SetModel p => (set_params w (Val p), Ok None)
  | Forward x =>
      match m_params (w_model w) with
      | Tracer => (w, Raise TypeError)
      | Val p => (w, Ok (Some (body fwd (m_con (w_model w)) x p)))
      end
  end.

(** the results of a history *)
Fixpoint run (w : world) (h : list act) : list (result (option Y)) :=
  match h with
  | [] => []
  | a :: r => let s := act_step w a in snd s :: run (fst s) r
  end.

(** a fresh model *)
Definition fresh (p : P) (c : list string) : world :=
  {| w_model := {| m_params := Val p; m_con := c; m_batch := None |}; w_funs := []; w_probs := [] |}.
End T.
Arguments Val {P} p.
Arguments Tracer {P}.
Arguments New {X P} b c.
Arguments Eval {X P} i k x.
Arguments Batch {X P} i x.
Arguments Modify {X P} i g.
Arguments SetModel {X P} p.
Arguments Forward {X P} x.
