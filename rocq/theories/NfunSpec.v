(** Specification for C67: the attributes a derivative callback of an NLPFunction object is computed with *)
From Verif Require Import Base RBase NfunModel.

Section N.
Variable At : Type.
Variable con : At -> list R -> list R.
Variable num_dec : At -> result nat.

(** the attributes after a history *)
Fixpoint attrs (s : At) (h : list (act At)) : At :=
  match h with [] => s | SetAttr g :: r => attrs (g s) r | _ :: r => attrs s r end.

(** the attributes the object had when the gradient (jacobian) was first evaluated at a point of n variables,
    those it has now if it never was *)
Fixpoint first_gradient (n : nat) (s : At) (h : list (act At)) : At :=
  match h with
  | [] => s
  | SetAttr g :: r => first_gradient n (g s) r
  | Gradient x :: r => if Nat.eqb (List.length x) n then s else first_gradient n s r
  | _ :: r => first_gradient n s r
  end.
Fixpoint first_jacobian (n : nat) (s : At) (h : list (act At)) : At :=
  match h with
  | [] => s
  | SetAttr g :: r => first_jacobian n (g s) r
  | Jacobian x :: r => if Nat.eqb (List.length x) n then s else first_jacobian n s r
  | _ :: r => first_jacobian n s r
  end.

(** a hessian evaluation that can be traced: one multiplier per constraint, and the class has num_dec *)
Definition evaluable (s : At) (x lam : list R) : Prop :=
  List.length lam = List.length (con s x) /\ exists n, num_dec s = Ok n.
Definition evaluable_dec (s : At) (x lam : list R) : {evaluable s x lam} + {~ evaluable s x lam}.
Proof.
  unfold evaluable. destruct (Nat.eq_dec (List.length lam) (List.length (con s x))) as [E|E]; [|right; intros [K _]; auto].
  destruct (num_dec s) as [n|e]; [left|right; intros [_ [n K]]; discriminate]. split; [exact E|]. exists n. reflexivity.
Defined.
Fixpoint first_hessian (n m : nat) (s : At) (h : list (act At)) : option At :=
  match h with
  | [] => None
  | SetAttr g :: r => first_hessian n m (g s) r
  | Hessian x lam f :: r =>
      if (Nat.eqb (List.length x) n && Nat.eqb (List.length lam) m)%bool then
        if evaluable_dec s x lam then Some s else first_hessian n m s r
      else first_hessian n m s r
  | _ :: r => first_hessian n m s r
  end.

(** histories that change no attribute *)
Definition unchanged (h : list (act At)) : bool := forallb (fun a => match a with SetAttr _ => false | _ => true end) h.
End N.
Arguments attrs {At} s h.
Arguments first_gradient {At} n s h.
Arguments first_jacobian {At} n s h.
Arguments unchanged {At} h.
