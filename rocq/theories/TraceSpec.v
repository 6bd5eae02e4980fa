(** Specification for C66: what a user expects of one model object used by several problems.
    Each problem has its own constraint outputs and its own parameters, taken from the model when the problem
    is made; evaluating a problem changes neither the model nor any other problem. *)
From Verif Require Import Base TraceModel.

Section T.
Variables X P Y : Type.
Variable body : nat -> list string -> X -> P -> Y.

Record expect := { e_model : P; e_con : list string; e_probs : list (list string * P) }.

Definition put_at {B} (l : list B) (i : nat) (b : B) : list B := firstn i l ++ b :: skipn (S i) l.

(** [latest]: the batched forward of every problem reports the constraint outputs of the problem made last
    (true), or those of the problem itself (false) *)
Definition expect_step (latest : bool) (e : expect) (a : act X P) : expect * result (option Y) :=
  match a with
  | New b c => ({| e_model := e_model e; e_con := c; e_probs := e_probs e ++ [(c, e_model e)] |}, Ok None)
  | Eval i k x =>
      (e, match nth_error (e_probs e) i with Some (c, p) => Ok (Some (body k c x p)) | None => Raise NameError end)
  | Batch i x =>
      (e, match nth_error (e_probs e) i with
          | Some (c, p) => Ok (Some (body 3 (if latest then e_con e else c) x p))
          | None => Raise NameError end)
  | Modify i g =>
      match nth_error (e_probs e) i with
      | Some (c, p) => ({| e_model := g p; e_con := e_con e; e_probs := put_at (e_probs e) i (c, g p) |}, Ok None)
      | None => (e, Raise NameError)
      end
  | SetModel p => ({| e_model := p; e_con := e_con e; e_probs := e_probs e |}, Ok None)
  | Forward x => (e, Ok (Some (body 3 (e_con e) x (e_model e))))
  end.

Fixpoint expect_run (latest : bool) (e : expect) (h : list (act X P)) : list (result (option Y)) :=
  match h with
  | [] => []
  | a :: r => snd (expect_step latest e a) :: expect_run latest (fst (expect_step latest e a)) r
  end.

Definition expect0 (p : P) (c : list string) : expect := {| e_model := p; e_con := c; e_probs := [] |}.

Definition plain_backend (b : backend) : bool := match b with Casadi => true | _ => false end.

(** Histories in which every problem uses the constraint outputs c, and in which, between an evaluation by
    a jax or custom problem and the next construction of a problem or direct use of the model, some
    parameter is set again. [bs]: backends of the problems so far; [dirty]: such an evaluation has happened. *)
Fixpoint tidy (c : list string) (dirty : bool) (bs : list backend) (h : list (act X P)) : Prop :=
  match h with
  | [] => True
  | New b c' :: r => dirty = false /\ c' = c /\ tidy c false (bs ++ [b]) r
  | Eval i _ _ :: r =>
      tidy c (match nth_error bs i with Some b => dirty || negb (plain_backend b) | None => dirty end)%bool bs r
  | Batch i _ :: r => tidy c (dirty || negb (forallb plain_backend (skipn (List.length bs - 1) bs)))%bool bs r
  | Modify i _ :: r => tidy c (match nth_error bs i with Some _ => false | None => dirty end) bs r
  | SetModel _ :: r => tidy c false bs r
  | Forward _ :: r => dirty = false /\ tidy c dirty bs r
  end.

(** the backends of the problems a history makes *)
Fixpoint made (h : list (act X P)) : list backend :=
  match h with
  | [] => []
  | New b _ :: r => b :: made r
  | _ :: r => made r
  end.

(** the constraint outputs of the problem made last *)
Definition con_of (c : list string) (h : list (act X P)) : list string :=
  fold_left (fun c a => match a with New _ c' => c' | _ => c end) h c.

(** actions that set the parameters of the model *)
Definition resets (a : act X P) : bool := match a with Modify _ _ | SetModel _ => true | _ => false end.

(** evaluations of function k of problem i *)
Definition evals (i k : nat) (a : act X P) : bool :=
  match a with Eval i' k' _ => (Nat.eqb i i' && Nat.eqb k k')%bool | _ => false end.
End T.
Arguments tidy {X P} c dirty bs h.
Arguments con_of {X P} c h.
Arguments made {X P} h.
Arguments resets {X P} a.
Arguments evals {X P} i k a.
Arguments expect0 {P} p c.
