(** Lemmas for C72: functions with second partial derivatives on a domain. *)
From Coq Require Import Rtrigo_reg Ranalysis4 Sqrt_reg.
From Verif Require Import Base RBase VehModel LocSpec LocProofs.
Import ListNotations.
Open Scope R_scope.

Definition tw (D : list R -> Prop) (n : nat) (f : list R -> R) : Prop := exists H, hessian_on D (fun _ _ => True) n f H.

Section Tw.
Variables (D : list R -> Prop) (n : nat).
Lemma tw_const : forall c, tw D n (fun _ => c).
Proof using. intro c. eexists. apply hd_const. Qed.
Lemma tw_coord : forall i, tw D n (vget i).
Proof using. intro i. exists (fun _ _ _ => 0), (fun _ j => if Nat.eqb i j then 1 else 0). split; [intros x j L _ Hj; apply pderiv_coord; now rewrite L|]. intros. exact (pderiv_const _ _ _). Qed.
Lemma tw_plus : forall f h, tw D n f -> tw D n h -> tw D n (fun x => f x + h x).
Proof using. intros f h [H A] [K B]. eexists. now apply hd_plus; [exact A|exact B]. Qed.
Lemma tw_scal : forall c f, tw D n f -> tw D n (fun x => c * f x).
Proof using. intros c f [H A]. eexists. apply hd_scal. exact A. Qed.
Lemma tw_eq : forall f h, (forall x, f x = h x) -> tw D n f -> tw D n h.
Proof using.
  intros f h E (H & g & G & HH). exists H, g. split; [|exact HH]. intros x j L HD Hj. eapply pderiv_ext; [exact E|]. now apply G.
Qed.
Lemma tw_opp : forall f, tw D n f -> tw D n (fun x => - f x).
Proof using. intros f A. apply (tw_eq (fun x => -1 * f x)); [intro x; ring|]. now apply tw_scal. Qed.
Lemma tw_minus : forall f h, tw D n f -> tw D n h -> tw D n (fun x => f x - h x).
Proof using. intros f h A B. apply (tw_plus f (fun x => - h x)); [assumption|now apply tw_opp]. Qed.
Lemma tw_mult : forall f h, tw D n f -> tw D n h -> tw D n (fun x => f x * h x).
Proof using.
  intros f h (H & g & G & HH) (K & k & G' & HK). exists (fun x i j => (H x i j * h x + g x i * k x j) + (g x j * k x i + f x * K x i j)), (fun x i => g x i * h x + f x * k x i). split.
  - intros x j L HD Hj. apply pderiv_mult; auto.
  - intros x i j L HD Hi Hj HT. apply (pderiv_plus (fun y => g y i * h y) (fun y => f y * k y i)).
    + apply (pderiv_mult (fun y => g y i) h); auto.
    + apply (pderiv_mult f (fun y => k y i)); auto.
Qed.
Lemma pderiv_comp : forall phi f x j d d', (j < List.length x)%nat -> pderiv f x j d -> derivable_pt_lim phi (f x) d' -> pderiv (fun y => phi (f y)) x j (d' * d).
Proof using.
  intros phi f x j d d' Hj A B. unfold pderiv in *. apply (derivable_pt_lim_comp (fun t => f (upd j t x)) phi (vget j x) d d' A). cbn beta. now rewrite upd_self.
Qed.
Lemma tw_comp : forall phi phi1 phi2 f, (forall x, List.length x = n -> D x -> derivable_pt_lim phi (f x) (phi1 (f x)) /\ derivable_pt_lim phi1 (f x) (phi2 (f x))) -> tw D n f -> tw D n (fun x => phi (f x)).
Proof using.
  intros phi phi1 phi2 f C (H & g & G & HH). exists (fun x i j => (phi2 (f x) * g x j) * g x i + phi1 (f x) * H x i j), (fun x i => phi1 (f x) * g x i). split.
  - intros x j L HD Hj. apply pderiv_comp; [lia|now apply G|]. now apply C.
  - intros x i j L HD Hi Hj HT. apply (pderiv_mult (fun y => phi1 (f y)) (fun y => g y i)); [|now apply HH].
    apply pderiv_comp; [lia|now apply G|]. now apply C.
Qed.
Lemma dlim_inv : forall x, x <> 0 -> derivable_pt_lim (fun t => / t) x (- (/ x * / x)).
Proof using.
  intros x Hx. pose proof (derivable_pt_lim_div (fct_cte 1) id x 0 1 (derivable_pt_lim_const 1 x) (derivable_pt_lim_id x) Hx) as A. unfold id, Rsqr, fct_cte in A.
  apply dlim_ext with (f := (fct_cte 1 / id)%F); [intro t; unfold div_fct, fct_cte, id, Rdiv; ring|].
  replace (- (/ x * / x)) with ((0 * x - 1 * 1) / (x * x)) by (field; exact Hx). exact A.
Qed.
Lemma tw_inv : forall f, (forall x, List.length x = n -> D x -> f x <> 0) -> tw D n f -> tw D n (fun x => / f x).
Proof using.
  intros f Z A. apply (tw_comp (fun t => / t) (fun t => - (/ t * / t)) (fun t => -1 * (- (/ t * / t) * / t + / t * - (/ t * / t)))); [|exact A].
  intros x L HD. specialize (Z x L HD). split; [now apply dlim_inv|].
  apply dlim_ext with (f := fun t => -1 * (/ t * / t)); [intro t; ring|]. apply (dlim_scal (fun t => / t * / t)). apply (dlim_mult (fun t => / t) (fun t => / t)); now apply dlim_inv.
Qed.
Lemma tw_div : forall f h, (forall x, List.length x = n -> D x -> h x <> 0) -> tw D n f -> tw D n h -> tw D n (fun x => f x / h x).
Proof using. intros f h Z A B. apply (tw_mult f (fun x => / h x)); [assumption|now apply tw_inv]. Qed.
Lemma tw_divc : forall f c, tw D n f -> tw D n (fun x => f x / c).
Proof using. intros f c A. apply (tw_mult f (fun _ => / c)); [assumption|apply tw_const]. Qed.
Lemma tw_pow2 : forall f, tw D n f -> tw D n (fun x => f x ^ 2).
Proof using. intros f A. apply (tw_eq (fun x => f x * f x)); [intro x; ring|now apply tw_mult]. Qed.
Lemma tw_sin : forall f, tw D n f -> tw D n (fun x => sin (f x)).
Proof using.
  intros f A. apply (tw_comp sin cos (fun t => - sin t)); [|exact A]. intros x L HD. split; [apply derivable_pt_lim_sin|apply derivable_pt_lim_cos].
Qed.
Lemma tw_cos : forall f, tw D n f -> tw D n (fun x => cos (f x)).
Proof using.
  intros f A. apply (tw_comp cos (fun t => - sin t) (fun t => -1 * cos t)); [|exact A]. intros x L HD. split; [apply derivable_pt_lim_cos|].
  apply dlim_ext with (f := fun t => -1 * sin t); [intro t; ring|]. apply dlim_scal. apply derivable_pt_lim_sin.
Qed.
Lemma one_sq : forall x, 1 + x ^ 2 <> 0.
Proof using. intro x. pose proof (pow2_ge_0 x). lra. Qed.
Lemma dlim_onesq : forall x, derivable_pt_lim (fun t => / (1 + t ^ 2)) x (- (/ (1 + x ^ 2) * / (1 + x ^ 2)) * (2 * x)).
Proof using.
  intro x. apply (derivable_pt_lim_comp (fun t => 1 + t ^ 2) (fun t => / t) x (2 * x)).
  - apply dlim_ext with (f := fun t => 1 + t * t); [intro t; ring|]. apply dlim_eq with (d := 0 + (1 * x + x * 1)); [ring|]. apply (dlim_plus (fun _ => 1) (fun t => t * t)); [apply dlim_const|]. apply (dlim_mult (fun t => t) (fun t => t)); apply derivable_pt_lim_id.
  - apply dlim_inv. apply one_sq.
Qed.
Lemma tw_atan : forall f, tw D n f -> tw D n (fun x => atan (f x)).
Proof using.
  intros f A. apply (tw_comp atan (fun t => / (1 + t ^ 2)) (fun t => - (/ (1 + t ^ 2) * / (1 + t ^ 2)) * (2 * t))); [|exact A]. intros x L HD. split; [|apply dlim_onesq].
  exact (derivable_pt_lim_atan (f x)).
Qed.
Lemma tw_sqrt : forall f, (forall x, List.length x = n -> D x -> 0 < f x) -> tw D n f -> tw D n (fun x => sqrt (f x)).
Proof using.
  intros f P A. apply (tw_comp sqrt (fun t => / (2 * sqrt t)) (fun t => - (/ (2 * sqrt t) * / (2 * sqrt t)) * (2 * / (2 * sqrt t)))); [|exact A]. intros x L HD. specialize (P x L HD). split; [now apply derivable_pt_lim_sqrt|].
  pose proof (sqrt_lt_R0 _ P) as S0. apply (derivable_pt_lim_comp (fun t => 2 * sqrt t) (fun t => / t) (f x) (2 * / (2 * sqrt (f x)))).
  - apply dlim_scal. now apply derivable_pt_lim_sqrt.
  - apply dlim_inv. lra.
Qed.
Lemma tw_on : forall f h, roomy n D -> (forall x, List.length x = n -> D x -> f x = h x) -> tw D n f -> tw D n h.
Proof using. intros f h RM E [H A]. exists H. eapply (hd_ext _ _ _ RM); [exact E|reflexivity|exact A]. Qed.
(** the complement of the zeros of a function with derivatives *)
Lemma roomy_nz : forall f, roomy n D -> tw D n f -> roomy n (fun x => D x /\ f x <> 0).
Proof using.
  intros f RM (H & g & G & _) x k L [HD Hf] Hk. destruct (RM x k L HD Hk) as (e & He & HE). pose proof (G x k L HD Hk) as A. unfold pderiv in A.
  set (F := fun t => f (upd k t x)) in *. assert (continuity_pt F (vget k x)) as C by (apply derivable_continuous_pt; exists (g x k); exact A).
  assert (F (vget k x) <> 0) as NZ by (unfold F; rewrite upd_self; exact Hf).
  destruct (C (Rabs (F (vget k x)))) as (al & Hal & HC); [now apply Rabs_pos_lt|]. exists (Rmin e al). split; [now apply Rmin_pos|]. intros t Ht. split.
  - apply HE. eapply Rlt_le_trans; [exact Ht|apply Rmin_l].
  - destruct (Req_dec t (vget k x)) as [->|N]; [exact NZ|]. intro Z. fold (F t) in Z. specialize (HC t). cbn in HC. unfold R_dist, D_x, no_cond in HC. rewrite Z in HC. replace (0 - F (vget k x)) with (- F (vget k x)) in HC by ring. rewrite Rabs_Ropp in HC.
    assert (Rabs (F (vget k x)) < Rabs (F (vget k x))); [|lra]. apply HC. split; [split; [exact I|congruence]|]. eapply Rlt_le_trans; [exact Ht|apply Rmin_r].
Qed.
End Tw.
Lemma tw_sub : forall (D E : list R -> Prop) n f, (forall x, List.length x = n -> E x -> D x) -> tw D n f -> tw E n f.
Proof. intros D E n f S0 (H & g & G & HH). exists H, g. split; [intros x j L HE Hj; apply G; auto|]. intros x i j L HE Hi Hj HT. apply HH; auto. Qed.
