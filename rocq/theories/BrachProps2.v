(** C59, continued: the hand-written derivatives of the time model. *)
From Verif Require Import Base RBase UtilsModel IoModel AlgModel AlgSpec BrachModel BrachSpec BrachProofs.
From Coq Require Import Lra.
Open Scope R_scope.

(** the residual of one stage of the time model, as base.py computes it *)
Definition time_residual (con : list string) (g mesh : R) : list R -> list R := residual (brach_names con) (fun ds di _ => time_forward [("gravity", g)] ds di) mesh.

Lemma res_sem : forall g mesh v x y th a b c, time_residual [] g mesh [v; x; y; th; a; b; c] = [- g * sin th - a; cos th * v - b; sin th * v - c].
Proof. reflexivity. Qed.
Lemma jac_sem : forall g v x y th a b c, custom_jac (brach_names []) g [v; x; y; th; a; b; c] =
  Ok [- g * cos th; - sin th * v; cos th; cos th * v; sin th; - (1); - (1); - (1)].
Proof. reflexivity. Qed.
Lemma hess_sem : forall g v x y th a b c m0 m1 m2, custom_hess (brach_names []) g [v; x; y; th; a; b; c] [m0; m1; m2] =
  Ok [g * sin th * m0 + - cos th * v * m1 + - sin th * v * m2; - sin th * m1 + cos th * m2; - sin th * m1 + cos th * m2].
Proof. reflexivity. Qed.

Lemma seven : forall x : list R, List.length x = 7%nat -> exists a b c d e f h, x = [a; b; c; d; e; f; h].
Proof. intros x H. do 7 (destruct x as [|? x]; [discriminate|]). destruct x; [|discriminate]. repeat eexists. Qed.
Lemma three : forall x : list R, List.length x = 3%nat -> exists a b c, x = [a; b; c].
Proof. intros x H. do 3 (destruct x as [|? x]; [discriminate|]). destruct x; [|discriminate]. repeat eexists. Qed.

Lemma lim_sin_id : forall x, derivable_pt_lim (fun t => sin t) x (cos x). Proof. exact derivable_pt_lim_sin. Qed.
Lemma lim_cos_id : forall x, derivable_pt_lim (fun t => cos t) x (- sin x). Proof. exact derivable_pt_lim_cos. Qed.
Lemma lim_opp : forall f t a, derivable_pt_lim f t a -> derivable_pt_lim (fun t => - f t) t (- a).
Proof. intros. now apply (derivable_pt_lim_opp f). Qed.
Lemma ext_lim : forall f h x d, (forall t, f t = h t) -> derivable_pt_lim h x d -> derivable_pt_lim f x d.
Proof. intros f h x d E D eps He. destruct (D eps He) as [del Hd]. exists del. intros t Ht Hl. rewrite !E. now apply Hd. Qed.
Ltac der := match goal with
  | |- derivable_pt_lim (fun _ => ?c) _ _ => apply (derivable_pt_lim_const c)
  | |- derivable_pt_lim (fun t => t) _ _ => apply derivable_pt_lim_id
  | |- derivable_pt_lim (fun t => sin t) _ _ => apply lim_sin_id
  | |- derivable_pt_lim sin _ _ => apply lim_sin_id
  | |- derivable_pt_lim (Rminus ?c) ?x ?d => change (derivable_pt_lim (fun t => c - t) x d); der
  | |- derivable_pt_lim (Rmult ?c) ?x ?d => change (derivable_pt_lim (fun t => c * t) x d); der
  | |- derivable_pt_lim (Rplus ?c) ?x ?d => change (derivable_pt_lim (fun t => c + t) x d); der
  | |- derivable_pt_lim cos _ _ => apply lim_cos_id
  | |- derivable_pt_lim (fun t => cos t) _ _ => apply lim_cos_id
  | |- derivable_pt_lim (fun t => - @?f t) _ _ => eapply (lim_opp f); der
  | |- derivable_pt_lim (fun t => @?f t + @?h t) _ _ => eapply (lim_plus f h); der
  | |- derivable_pt_lim (fun t => @?f t - @?h t) _ _ => eapply (lim_minus f h); der
  | |- derivable_pt_lim (fun t => @?f t * @?h t) _ _ => eapply (lim_mult f h); der
  end.
Ltac der_eq := eapply lim_eq; [|der]; cbn beta; try ring.

(** the triplets of the hand-written jacobian describe exactly the jacobian of the residual, at every point and for every gravity *)
Theorem C59_custom_jacobian : exists rows cols, custom_js (brach_names []) = Ok (rows, cols) /\ (List.length rows = List.length cols)%nat /\
  forall g mesh, exists vals, (forall x, List.length x = 7%nat -> custom_jac (brach_names []) g x = Ok (vals x) /\ List.length (vals x) = List.length rows) /\
    is_jacobian 7 3 (time_residual [] g mesh) (fun x i j => tri rows cols (vals x) i j).
Proof.
  exists [0; 1; 1; 2; 2; 0; 1; 2]%nat, [3; 3; 0; 3; 0; 4; 5; 6]%nat. split; [reflexivity|]. split; [reflexivity|]. intros g mesh. exists (fun x => or_nil (custom_jac (brach_names []) g x)). split.
  - intros x H. destruct (seven x H) as (v & x' & y & th & a & b & c & ->). rewrite jac_sem. split; reflexivity.
  - intros x i j H Hi Hj. destruct (seven x H) as (v & x' & y & th & a & b & c & ->). rewrite jac_sem. cbn [or_nil app]. unfold pderiv.
    destruct i as [|[|[|i]]]; [| | |lia]; destruct j as [|[|[|[|[|[|[|j]]]]]]]; try lia;
      (eapply lim_eq; [|eapply ext_lim; [intro t; cbn [upd]; rewrite res_sem; cbn [vget nth]; reflexivity|]]).
    all: cbn [upd tri Nat.eqb andb vget nth]; try der.
    all: cbn beta; try ring.
Qed.
Print Assumptions C59_custom_jacobian.

Lemma lag_sem : forall g mesh m0 m1 m2 v x y th a b c, vdot [m0; m1; m2] (time_residual [] g mesh [v; x; y; th; a; b; c]) =
  m0 * (- g * sin th - a) + (m1 * (cos th * v - b) + (m2 * (sin th * v - c) + 0)).
Proof. reflexivity. Qed.
(** the triplets of the hand-written hessian describe exactly the hessian of the weighted residual (both triangles) *)
Theorem C59_custom_hessian : exists rows cols, custom_hs (brach_names []) = Ok (rows, cols) /\ (List.length rows = List.length cols)%nat /\
  forall g mesh mult, List.length mult = 3%nat -> exists vals, (forall x, List.length x = 7%nat -> custom_hess (brach_names []) g x mult = Ok (vals x) /\ List.length (vals x) = List.length rows) /\
    is_hessian 7 (fun x => vdot mult (time_residual [] g mesh x)) (fun x i j => tri rows cols (vals x) i j).
Proof.
  exists [3; 3; 0]%nat, [3; 0; 3]%nat. split; [reflexivity|]. split; [reflexivity|]. intros g mesh mult Hm. destruct (three mult Hm) as (m0 & m1 & m2 & ->).
  exists (fun x => or_nil (custom_hess (brach_names []) g x [m0; m1; m2])). split.
  - intros x H. destruct (seven x H) as (v & x' & y & th & a & b & c & ->). rewrite hess_sem. split; reflexivity.
  - exists (fun x j => let v := vget 0 x in let th := vget 3 x in
      nth j [m1 * cos th + m2 * sin th; 0; 0; m0 * (- g * cos th) + m1 * (- sin th * v) + m2 * (cos th * v); - m0; - m1; - m2] 0). split.
    + intros x j H Hj. destruct (seven x H) as (v & x' & y & th & a & b & c & ->). unfold pderiv.
      destruct j as [|[|[|[|[|[|[|j]]]]]]]; try lia; (eapply lim_eq; [|eapply ext_lim; [intro t; cbn [upd]; rewrite lag_sem; reflexivity|]]).
      all: cbn [upd vget nth]; try der.
      all: cbn beta; try ring.
    + intros x j l H Hj Hl. destruct (seven x H) as (v & x' & y & th & a & b & c & ->). rewrite hess_sem. cbn [or_nil]. unfold pderiv.
      destruct j as [|[|[|[|[|[|[|j]]]]]]]; try lia; destruct l as [|[|[|[|[|[|[|l]]]]]]]; try lia;
        (eapply lim_eq; [|eapply ext_lim; [intro t; cbn [upd vget nth]; reflexivity|]]).
      all: cbn [upd tri Nat.eqb andb vget nth]; try der.
      all: cbn beta; try ring.
Qed.
Print Assumptions C59_custom_hessian.
