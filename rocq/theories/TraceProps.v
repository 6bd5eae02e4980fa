(** C66: one model object used by several problems *)
From Verif Require Import Base TraceModel TraceSpec TraceProofs.
Local Open Scope string_scope.

(** Problems that agree on the constraint outputs: every history in which a parameter is set again between an
    evaluation and the next construction or direct use gives what is expected: each problem evaluates its own
    parameters, whatever was traced, and in whatever order. *)
Theorem C66_shared : forall X P Y (body : nat -> list string -> X -> P -> Y) sig p c0 c h,
  tidy c false [] h ->
  run X P Y body sig (fresh P p c0) h = expect_run X P Y body false (expect0 p c0) h.
Proof.
  intros X P Y body sig p c0 c h T.
  exact (shared_inv X P Y body sig h c false [] _ _ (inv_fresh P p c c0) T).
Qed.
Print Assumptions C66_shared.

(** Problems compiled with CasADi: every history, whatever the constraint outputs, except that the batched
    forward of every problem reports the constraint outputs of the problem made last. *)
Theorem C66_casadi : forall X P Y (body : nat -> list string -> X -> P -> Y) sig p c0 h,
  Forall (fun b => b = Casadi) (made h) ->
  run X P Y body sig (fresh P p c0) h = expect_run X P Y body true (expect0 p c0) h.
Proof.
  intros X P Y body sig p c0 h T.
  exact (casadi_inv X P Y body sig h _ _ (cinv_fresh P p c0) T).
Qed.
Print Assumptions C66_casadi.

(** jax: the first successful evaluation of a function (constraints, jacobian, hessian) by a problem leaves
    the model with dead tracers as parameters: whatever is evaluated or made after it, until a parameter is set
    the model's forward raises a TypeError, *)
Theorem C66_leak_refuted : forall X P Y (body : nat -> list string -> X -> P -> Y) sig p c h1 h2 i k x y z,
  k <> 3 -> Forall (fun b => b = Jax) (made (h1 ++ h2)) ->
  existsb (evals i k) h1 = false ->
  nth_error (run X P Y body sig (fresh P p c) (h1 ++ [Eval i k x])) (List.length h1) = Some (Ok y) ->
  forallb (fun a => negb (resets a)) h2 = true ->
  nth_error (run X P Y body sig (fresh P p c) ((h1 ++ Eval i k x :: h2) ++ [Forward z]))
    (List.length (h1 ++ Eval i k x :: h2)) = Some (Raise TypeError).
Proof.
  intros X P Y body sig p c h1 h2 i k x y z Hk T E V R. exact (leak_forward X P Y body sig h1 h2 i k x y z p c Hk T E V R).
Qed.
Print Assumptions C66_leak_refuted.

(** and so does every evaluation of a problem made on it. *)
Theorem C66_leak_new_refuted : forall X P Y (body : nat -> list string -> X -> P -> Y) sig p c h1 h2 i k x y k' z c',
  k <> 3 -> Forall (fun b => b = Jax) (made (h1 ++ h2)) ->
  existsb (evals i k) h1 = false ->
  nth_error (run X P Y body sig (fresh P p c) (h1 ++ [Eval i k x])) (List.length h1) = Some (Ok y) ->
  forallb (fun a => negb (resets a)) h2 = true ->
  nth_error (run X P Y body sig (fresh P p c)
     ((h1 ++ Eval i k x :: h2) ++ [New Jax c'; Eval (List.length (made (h1 ++ h2))) k' z]))
    (S (List.length (h1 ++ Eval i k x :: h2))) = Some (Raise TypeError).
Proof.
  intros X P Y body sig p c h1 h2 i k x y k' z c' Hk T E V R.
  exact (leak_new X P Y body sig h1 h2 i k x y k' z p c c' Hk T E V R).
Qed.
Print Assumptions C66_leak_new_refuted.

(** Setting the model's parameters ends it, after any history of any backends. *)
Theorem C66_recover : forall X P Y (body : nat -> list string -> X -> P -> Y) sig p c h q z,
  nth_error (run X P Y body sig (fresh P p c) (h ++ [SetModel q; Forward z])) (S (List.length h)) =
  Some (Ok (Some (body 3 (con_of c h) z q))).
Proof. intros. apply set_model_forward. Qed.
Print Assumptions C66_recover.

(** Examples: the value of a function is the tuple of what it was computed from *)
Definition xbody (k : nat) (c : list string) (x p : nat) := (k, c, x, p).
Definition xrun (h : list (act nat nat)) := run nat nat _ xbody (fun k x p => x) (fresh nat 10 ["o"]) h.
Definition xexp (h : list (act nat nat)) := expect_run nat nat _ xbody false (expect0 10 ["o"]) h.

(** a problem made after another one was evaluated *)
Theorem C66_second_refuted :
  let h := [New Jax ["a"]; Eval 0 0 1; New Jax ["a"]; Eval 1 0 1] in
  nth_error (xrun h) 3 = Some (Raise TypeError) /\ nth_error (xexp h) 3 = Some (Ok (Some (0, ["a"], 1, 10))).
Proof. split; reflexivity. Qed.
Print Assumptions C66_second_refuted.

(** two jax problems with different constraint outputs: what a problem evaluates depends on whether it was
    evaluated before the second problem was made *)
Theorem C66_late_trace_refuted :
  nth_error (xrun [New Jax ["a"]; New Jax ["b"]; Eval 0 0 1]) 2 = Some (Ok (Some (0, ["b"], 1, 10))) /\
  nth_error (xrun [New Jax ["a"]; Eval 0 0 1; New Jax ["b"]; Eval 0 0 1]) 3 = Some (Ok (Some (0, ["a"], 1, 10))) /\
  nth_error (xexp [New Jax ["a"]; New Jax ["b"]; Eval 0 0 1]) 2 = Some (Ok (Some (0, ["a"], 1, 10))).
Proof. repeat split; reflexivity. Qed.
Print Assumptions C66_late_trace_refuted.

(** the batched forward (guess, logs) of the first of two problems compiled with CasADi *)
Theorem C66_batch_refuted :
  let h := [New Casadi ["a"]; New Casadi ["b"]; Batch 0 1] in
  nth_error (xrun h) 2 = Some (Ok (Some (3, ["b"], 1, 10))) /\ nth_error (xexp h) 2 = Some (Ok (Some (3, ["a"], 1, 10))).
Proof. split; reflexivity. Qed.
Print Assumptions C66_batch_refuted.

(** custom functions: evaluating a problem sets the parameters of the model *)
Theorem C66_custom_refuted :
  let h := [New Custom ["a"]; SetModel 20; Eval 0 0 1; Forward 1; New Custom ["a"]; Eval 1 0 1] in
  nth_error (xrun h) 3 = Some (Ok (Some (3, ["a"], 1, 10))) /\ nth_error (xexp h) 3 = Some (Ok (Some (3, ["a"], 1, 20))) /\
  nth_error (xrun h) 5 = Some (Ok (Some (0, ["a"], 1, 10))) /\ nth_error (xexp h) 5 = Some (Ok (Some (0, ["a"], 1, 20))).
Proof. repeat split; reflexivity. Qed.
Print Assumptions C66_custom_refuted.

(** two problems with different parameters on one model, evaluated in turn under jax, one modified in between *)
Example C66_nonvacuous :
  let h := [New Jax ["a"]; SetModel 20; New Jax ["a"]; Eval 0 0 1; Eval 1 0 1; Eval 0 1 2;
            Modify 0 (fun p => p + 1); Eval 0 0 1; Eval 1 0 1; Batch 0 7; SetModel 5; Forward 4; New Casadi ["a"]; Eval 2 0 1] in
  tidy ["a"] false [] h /\
  xrun h = [Ok None; Ok None; Ok None; Ok (Some (0, ["a"], 1, 10)); Ok (Some (0, ["a"], 1, 20)); Ok (Some (1, ["a"], 2, 10));
            Ok None; Ok (Some (0, ["a"], 1, 11)); Ok (Some (0, ["a"], 1, 20)); Ok (Some (3, ["a"], 7, 11)); Ok None;
            Ok (Some (3, ["a"], 4, 5)); Ok None; Ok (Some (0, ["a"], 1, 5))] /\
  xrun h = xexp h /\
  (* C66_leak_refuted *)
  nth_error (xrun [New Jax ["a"]; New Jax ["b"]; Eval 1 0 1; Eval 0 1 1; Batch 1 2; Forward 1]) 5 = Some (Raise TypeError).
Proof. repeat split; reflexivity. Qed.
