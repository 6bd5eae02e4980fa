(** C71, continued: automatic differentiation as assumed exists for every function on every open domain. *)
From Verif Require Import Base RBase TreeModel UtilsModel UtilsProofs IoModel AlgModel AlgSpec AlgProofs NlpModel BuildModel BuildSpec JaxModel JaxSpec JaxProofs JaxProps2 LocSpec LocJaxSpec LocProofs LocProofs3.
Import ListNotations.
Open Scope R_scope.

Lemma ideal_on : forall D n m f, roomy n D -> autodiff_on ideal_jacobian ideal_hessian D n m f.
Proof.
  intros D n m f RM. split.
  - intros J HJ x i j Lx HD Hi Hj. unfold ideal_jacobian. rewrite (ideal_pderiv (fun y => vget i (f y)) x j _ (HJ x i j Lx HD Hi Hj)). now apply HJ.
  - intros l H Ll (g & G & HH). exists g. split; [exact G|]. intros x j k Lx HD Hj Hk HT. unfold ideal_hessian.
    assert (pderiv (fun y => ideal_gradient (fun x => vdot l (f x)) y j) x k (H x j k)) as A.
    { apply (pderiv_dom D (fun y => g y j) _ n); try assumption; [|now apply HH]. intros y Ly HY. symmetry. apply (ideal_pderiv (fun x => vdot l (f x))). now apply G. }
    rewrite (ideal_pderiv (fun y => ideal_gradient (fun x => vdot l (f x)) y j) x k _ A). now apply HH.
Qed.
Example C71_autodiff_exists : forall P (M : smodel P) dom con p, names_ok (names_of M con) -> open_domain M dom -> autodiff_model ideal_jacobian ideal_hessian M dom con p.
Proof.
  intros P M dom con p HN OD mesh. apply ideal_on. apply (roomy_firstn (List.length (m_states M) + List.length (m_inputs M))); [|intro x; apply within_firstn|exact (OD mesh)].
  pose proof (nvar _ HN) as X. change (names_of M con "states") with (m_states M) in X. change (names_of M con "inputs") with (m_inputs M) in X. lia.
Qed.
Print Assumptions C71_autodiff_exists.
