(** Lemmas for C75: curves that switch, the forces of the MF5.2 tire as functions with second derivatives. *)
From Coq Require Import Rtrigo_reg Ranalysis4 Sqrt_reg Ratan Rpower Lra Lia.
From Verif Require Import Base RBase VehModel LocSpec LocProofs LocCalc LocRaceSpec LocRaceProofs UtilsModel PacModel PacSpec PacProofs PacProps PacProps3 LocPacSpec.
Import ListNotations.
Open Scope R_scope.

Definition gate (y : R) : R := if Rlt_dec 0 y then 1 else 0.
Lemma near_pos : forall f x j d, (j < List.length x)%nat -> pderiv f x j d -> f x <> 0 -> exists e, 0 < e /\ forall t, Rabs (t - vget j x) < e -> 0 < f (upd j t x) * f x.
Proof.
  intros f x j d Hj A NZ. unfold pderiv in A. set (F := fun t => f (upd j t x)) in *. assert (continuity_pt F (vget j x)) as C by (apply derivable_continuous_pt; exists d; exact A).
  assert (F (vget j x) = f x) as E0 by (unfold F; now rewrite upd_self). destruct (C (Rabs (f x))) as (al & Hal & HC); [now apply Rabs_pos_lt|]. exists al. split; [exact Hal|]. intros t Ht. fold (F t).
  destruct (Req_dec t (vget j x)) as [->|N]; [rewrite E0; nra|]. specialize (HC t). cbn in HC. unfold R_dist, D_x, no_cond in HC. rewrite E0 in HC.
  assert (Rabs (F t - f x) < Rabs (f x)) as Q by (apply HC; split; [split; [exact I|congruence]|exact Ht]). apply Rabs_def2 in Q. unfold Rabs in Q. destruct (Rcase_abs (f x)); nra.
Qed.
Lemma pderiv_gate : forall y G x j dy d, (j < List.length x)%nat -> pderiv y x j dy -> pderiv G x j d -> (y x = 0 -> G x = 0 /\ d = 0) -> pderiv (fun w => gate (y w) * G w) x j (gate (y x) * d).
Proof.
  intros y G x j dy d Hj A B Z. destruct (Req_dec (y x) 0) as [E|N].
  - destruct (Z E) as [G0 ->]. rewrite Rmult_0_r. unfold pderiv in *. intros eps He. destruct (B eps He) as (del & Hd). exists del. intros h Hh Hl. specialize (Hd h Hh Hl). rewrite upd_self in *. rewrite G0 in *.
    rewrite Rmult_0_r. unfold gate. destruct (Rlt_dec 0 _); [now rewrite Rmult_1_l|]. rewrite Rmult_0_l. replace ((0 - 0) / h - 0) with 0 by (field; exact Hh). now rewrite Rabs_R0.
  - destruct (near_pos y x j dy Hj A N) as (e & He & HE). unfold pderiv in *. apply (dlim_near (fun t => gate (y x) * G (upd j t x)) _ _ _ e He); [|now apply dlim_scal].
    intros t Ht. specialize (HE t Ht). f_equal. unfold gate. destruct (Rlt_dec 0 (y x)), (Rlt_dec 0 (y (upd j t x))); try reflexivity; nra.
Qed.
Section Sw.
Variables (D : list R -> Prop) (n : nat).
Lemma tw_gate : forall phi phi1 phi2 y z, (forall t, derivable_pt_lim phi t (phi1 t) /\ derivable_pt_lim phi1 t (phi2 t)) -> phi 0 = 0 -> phi1 0 = 0 -> phi2 0 = 0 -> tw D n y -> tw D n z -> (forall x, y x = 0 -> z x = 0) ->
  tw D n (fun x => gate (y x) * phi (z x)).
Proof using.
  intros phi phi1 phi2 y z C P0 P1 P2 (Hy & gy & GY & _) (H & g & G & HH) Z.
  exists (fun x i j => gate (y x) * ((phi2 (z x) * g x j) * g x i + phi1 (z x) * H x i j)), (fun x i => gate (y x) * (phi1 (z x) * g x i)). split.
  - intros x j L HD Hj. apply (pderiv_gate y (fun x => phi (z x)) x j (gy x j)); [lia|now apply GY| |].
    + apply pderiv_comp; [lia|now apply G|apply C].
    + intro E. rewrite (Z x E), P0, P1. split; [reflexivity|ring].
  - intros x i j L HD Hi Hj HT. apply (pderiv_gate y (fun x => phi1 (z x) * g x i) x j (gy x j)); [lia|now apply GY| |].
    + apply (pderiv_mult (fun y => phi1 (z y)) (fun y => g y i)); [|now apply HH]. apply pderiv_comp; [lia|now apply G|apply C].
    + intro E. rewrite (Z x E), P1, P2. split; ring.
Qed.
Lemma tw_min1 : forall f, (forall x, List.length x = n -> D x -> f x <> 1) -> tw D n f -> tw D n (fun x => Rmin 1 (f x)).
Proof using.
  intros f N A. apply (tw_comp D n (fun t => Rmin 1 t) (fun t => if Rlt_dec t 1 then 1 else 0) (fun _ => 0)); [|exact A]. intros x L HD. specialize (N x L HD). assert (0 < Rabs (f x - 1)) as P by (apply Rabs_pos_lt; lra).
  assert (forall t, Rabs (t - f x) < Rabs (f x - 1) -> (f x < 1 <-> t < 1)) as K. { intros t Ht. apply Rabs_def2 in Ht. unfold Rabs in Ht. destruct (Rcase_abs (f x - 1)); lra. }
  split.
  - destruct (Rlt_dec (f x) 1) as [Q|Q].
    + apply (dlim_near (fun t => t) _ _ _ _ P); [|apply derivable_pt_lim_id]. intros t Ht. apply K in Ht. symmetry. apply Rmin_right. tauto || lra.
    + apply (dlim_near (fun _ => 1) _ _ _ _ P); [|apply dlim_const]. intros t Ht. apply K in Ht. symmetry. apply Rmin_left. destruct (Rlt_dec t 1); [tauto|lra].
  - apply (dlim_near (fun _ => if Rlt_dec (f x) 1 then 1 else 0) _ _ _ _ P); [|apply dlim_const]. intros t Ht. apply K in Ht. destruct (Rlt_dec (f x) 1), (Rlt_dec t 1); tauto || reflexivity.
Qed.
Lemma tw_sign : forall f, (forall x, List.length x = n -> D x -> f x <> 0) -> tw D n f -> tw D n (fun x => nsign (f x)).
Proof using.
  intros f N A. apply (tw_comp D n nsign (fun _ => 0) (fun _ => 0)); [|exact A]. intros x L HD. specialize (N x L HD). assert (0 < Rabs (f x)) as P by (now apply Rabs_pos_lt). split; [|apply dlim_const].
  apply (dlim_near (fun _ => nsign (f x)) _ _ _ _ P); [|apply dlim_const]. intros t Ht. apply Rabs_def2 in Ht. unfold Rabs in Ht. unfold nsign.
  destruct (Rcase_abs (f x)); destruct (Rlt_dec 0 (f x)), (Rlt_dec 0 t), (Rlt_dec (f x) 0), (Rlt_dec t 0); lra.
Qed.
Lemma tw_bend : forall E z, (forall x, List.length x = n -> D x -> E x <> 1) -> tw D n E -> tw D n z -> tw D n (fun x => bend (E x) (z x)).
Proof using. intros E z N A B. unfold bend. assert (tw D n (fun x => Rmin 1 (E x))) as M by now apply tw_min1. tw. Qed.
(** the curve through zero slip, where the curvature changes *)
Lemma dlim_lag : forall t, derivable_pt_lim (fun t => t - atan t) t (1 - / (1 + t ^ 2)) /\ derivable_pt_lim (fun t => 1 - / (1 + t ^ 2)) t (/ (1 + t ^ 2) * / (1 + t ^ 2) * (2 * t)).
Proof using.
  intro t. split.
  - apply dlim_ext with (f := fun t => t + -1 * atan t); [intro; ring|]. apply dlim_eq with (d := 1 + -1 * (/ (1 + t ^ 2))); [ring|]. apply (dlim_plus (fun t => t) (fun t => -1 * atan t)); [apply derivable_pt_lim_id|].
    apply dlim_scal. exact (derivable_pt_lim_atan t).
  - apply dlim_ext with (f := fun t => 1 + -1 * / (1 + t ^ 2)); [intro; ring|]. apply dlim_eq with (d := 0 + -1 * (- (/ (1 + t ^ 2) * / (1 + t ^ 2)) * (2 * t))); [ring|].
    apply (dlim_plus (fun _ => 1) (fun t => -1 * / (1 + t ^ 2))); [apply dlim_const|]. apply (dlim_scal (fun t => / (1 + t ^ 2))). apply dlim_onesq.
Qed.
Lemma tw_sided : forall (E : R -> list R -> R) B y, (forall x, List.length x = n -> D x -> E 1 x <> 1) -> (forall x, List.length x = n -> D x -> E (-1) x <> 1) -> tw D n (E 1) -> tw D n (E (-1)) -> tw D n B -> tw D n y ->
  tw D n (fun x => bend (E (nsign (y x)) x) (B x * y x)).
Proof using.
  intros E B y N1 N2 A1 A2 HB HY. assert (tw D n (fun x => Rmin 1 (E 1 x))) as M1 by now apply tw_min1. assert (tw D n (fun x => Rmin 1 (E (-1) x))) as M2 by now apply tw_min1.
  assert (tw D n (fun x => B x * y x)) as HZ by tw.
  assert (tw D n (fun x => gate (y x) * (B x * y x - atan (B x * y x)))) as HG.
  { apply (tw_gate (fun t => t - atan t) (fun t => 1 - / (1 + t ^ 2)) (fun t => / (1 + t ^ 2) * / (1 + t ^ 2) * (2 * t)) y (fun x => B x * y x)); try assumption; [apply dlim_lag|rewrite atan_0; ring| | |intros x ->; ring].
    - replace (0 ^ 2) with 0 by ring. rewrite Rplus_0_r, Rinv_1. ring.
    - ring. }
  assert (exists q, tw D n q /\ forall x, q x = gate (y x) * (B x * y x - atan (B x * y x))) as (q & HQ & EQ) by (eexists; split; [exact HG|reflexivity]).
  apply (tw_eq D n (fun x => atan (B x * y x - (Rmin 1 (E (-1) x) * (B x * y x - atan (B x * y x)) + (Rmin 1 (E 1 x) - Rmin 1 (E (-1) x)) * q x)))); [|clear HG EQ; tw].
  intro x. rewrite EQ. unfold bend, gate, nsign. f_equal. destruct (Rlt_dec 0 (y x)); [ring|]. destruct (Rlt_dec (y x) 0); [ring|]. assert (y x = 0) as -> by lra. rewrite !Rmult_0_r, atan_0. ring.
Qed.
End Sw.

Section Mf.
Variables (p : string -> R) (gamma : R).
Definition load_ratio (Fz : R) : R := Fz / (p "LFZO" * p "FNOMIN") - 1.
Definition long_weight (f kappa a : R) : R := hill (p "RCX1") (p "REX1" + p "REX2" * f) (p "RBX1" * p "LXAL" / sqrt (1 + (p "RBX2" * kappa) * (p "RBX2" * kappa)) * a).
Definition long_at (f kappa alpha Fz : R) : R :=
  let D := long_peak p f gamma Fz in let x := kappa + long_shift p f in let B := long_stiffness p f Fz / (p "PCX1" * p "LCX" * D + p "epsilonx" * nsign D) in
  long_weight f kappa (alpha + p "RHX1") / long_weight f kappa (p "RHX1") * (D * sin (p "PCX1" * p "LCX" * bend (long_curvature p f (nsign x)) (B * x)) + long_offset p f Fz).
Definition lat_weight (f alpha a : R) : R := hill (p "RCY1") (p "REY1" + p "REY2" * f) (p "RBY1" * p "LYKA" / sqrt (1 + (p "RBY2" * (alpha - p "RBY3")) * (p "RBY2" * (alpha - p "RBY3"))) * a).
Definition lat_K (Fz : R) : R := let r := Fz / (p "LFZO" * p "FNOMIN" * p "PKY2") in p "PKY1" * (p "LFZO" * p "FNOMIN") * (1 - p "PKY3" * Rabs gamma) * p "LKY" * (2 * r) / (1 + r * r).
Definition lat_at (f kappa alpha Fz : R) : R :=
  let D := lat_friction p f gamma * Fz in let x := alpha + lat_shift p f gamma in let B := lat_K Fz / (p "PCY1" * p "LCY" * D + p "epsilony" * nsign D) in let h := p "RHY1" + p "RHY2" * f in
  lat_weight f alpha (kappa + h) / lat_weight f alpha h * (D * sin (p "PCY1" * p "LCY" * bend (lat_curvature p f gamma (nsign x)) (B * x)) + lat_offset p f gamma Fz) + slip_side_force p f kappa alpha gamma Fz.
Lemma nsign_is : forall x, sign_of x (nsign x).
Proof using. clear. intro x. unfold sign_of, nsign. repeat split; intro; destruct (Rlt_dec 0 x), (Rlt_dec x 0); lra. Qed.
Lemma ratio_is : forall Fz, p "LFZO" * p "FNOMIN" <> 0 -> load_change p Fz (load_ratio Fz).
Proof using. intros Fz N. split; [exact N|]. unfold load_ratio. field. split; intro E; apply N; rewrite E; ring. Qed.
Lemma long_is : forall f kappa alpha Fz, smooth_point p f gamma Fz kappa alpha -> longitudinal p f kappa alpha gamma Fz (long_at f kappa alpha Fz) (long_stiffness p f Fz) (long_weight f kappa (alpha + p "RHX1") / long_weight f kappa (p "RHX1")).
Proof using.
  intros f kappa alpha Fz [N1 N2 _ _ N3 _ _ _ _ _ _]. specialize (N2 _ (nsign_is _)). unfold longitudinal. cbv zeta.
  exists (nsign (long_peak p f gamma Fz)), (nsign (kappa + long_shift p f)), (long_stiffness p f Fz / (p "PCX1" * p "LCX" * long_peak p f gamma Fz + p "epsilonx" * nsign (long_peak p f gamma Fz))). eexists.
  split; [apply nsign_is|]. split; [apply nsign_is|]. split; [reflexivity|]. split; [exact N2|]. split; [field; exact N2|]. split; [reflexivity|]. split; [exact N3|]. split; [|reflexivity].
  unfold long_weight. field. exact N3.
Qed.
Lemma lat_is : forall f kappa alpha Fz, p "LFZO" * p "FNOMIN" <> 0 -> smooth_point p f gamma Fz kappa alpha -> lateral p f kappa alpha gamma Fz (lat_at f kappa alpha Fz) (lat_K Fz)
  (lat_weight f alpha (kappa + (p "RHY1" + p "RHY2" * f)) / lat_weight f alpha (p "RHY1" + p "RHY2" * f)) (lat_K Fz / (p "PCY1" * p "LCY" * (lat_friction p f gamma * Fz) + p "epsilony" * nsign (lat_friction p f gamma * Fz))).
Proof using.
  intros f kappa alpha Fz N0 [_ _ _ _ _ NK N1 N2 _ _ N3]. specialize (N2 _ (nsign_is _)). unfold lateral. cbv zeta.
  exists (nsign (lat_friction p f gamma * Fz)), (nsign (alpha + lat_shift p f gamma)). eexists.
  split; [apply nsign_is|]. split; [apply nsign_is|]. split.
  { split; [exact NK|]. exists (Fz / (p "LFZO" * p "FNOMIN" * p "PKY2")). split; [field; repeat split; try assumption; intro E; apply N0; rewrite E; ring|]. unfold lat_K. cbv zeta.
    set (r := Fz / _). field. nra. }
  split; [exact N2|]. split; [field; exact N2|]. split; [reflexivity|]. split; [exact N3|]. split; [|reflexivity].
  unfold lat_weight. field. exact N3.
Qed.
(** second derivatives *)
Variables (D : list R -> Prop) (n : nat) (Fz kappa alpha : list R -> R).
Hypothesis N0 : p "LFZO" * p "FNOMIN" <> 0.
Hypothesis TF : tw D n Fz.
Hypothesis TK : tw D n kappa.
Hypothesis TA : tw D n alpha.
Let f (w : list R) : R := load_ratio (Fz w).
Lemma tw_f : tw D n f.
Proof using TF. unfold f, load_ratio. tw. Qed.
Lemma tw_exp' : forall f, tw D n f -> tw D n (fun x => exp (f x)).
Proof using. clear. intros f A. apply (tw_comp D n exp exp exp); [|exact A]. intros x _ _. split; apply derivable_pt_lim_exp. Qed.
Lemma tw_root : forall g, tw D n g -> tw D n (fun w => sqrt (1 + g w * g w)).
Proof using. clear. intros g A. apply (tw_sqrt D n (fun w => 1 + g w * g w)); [intros; nra|]. tw. Qed.
Lemma root_nz : forall x, sqrt (1 + x * x) <> 0.
Proof using. clear. intro x. apply Rgt_not_eq, sqrt_lt_R0. nra. Qed.
Lemma tw_long_weight : forall a, (forall w, List.length w = n -> D w -> p "REX1" + p "REX2" * f w <> 1) -> tw D n a -> tw D n (fun w => long_weight (f w) (kappa w) (a w)).
Proof using TF TK.
  clear N0 TA. intros a N A. unfold long_weight, hill. pose proof tw_f as F. assert (tw D n (fun w => p "REX1" + p "REX2" * f w)) as E by tw.
  assert (tw D n (fun w => p "RBX1" * p "LXAL" / sqrt (1 + (p "RBX2" * kappa w) * (p "RBX2" * kappa w)) * a w)) as B.
  { assert (tw D n (fun w => sqrt (1 + (p "RBX2" * kappa w) * (p "RBX2" * kappa w)))) as Q by (apply (tw_root (fun w => p "RBX2" * kappa w)); tw). apply (tw_mult D n (fun w => p "RBX1" * p "LXAL" / sqrt (1 + (p "RBX2" * kappa w) * (p "RBX2" * kappa w))) a); [|exact A].
    apply (tw_div D n (fun _ => p "RBX1" * p "LXAL") (fun w => sqrt (1 + (p "RBX2" * kappa w) * (p "RBX2" * kappa w)))); [intros; apply root_nz|tw|exact Q]. }
  pose proof (tw_bend D n _ _ N E B) as T. cbv beta in T. tw.
Qed.
Lemma tw_lat_weight : forall a, (forall w, List.length w = n -> D w -> p "REY1" + p "REY2" * f w <> 1) -> tw D n a -> tw D n (fun w => lat_weight (f w) (alpha w) (a w)).
Proof using TF TA.
  clear N0 TK. intros a N A. unfold lat_weight, hill. pose proof tw_f as F. assert (tw D n (fun w => p "REY1" + p "REY2" * f w)) as E by tw.
  assert (tw D n (fun w => p "RBY1" * p "LYKA" / sqrt (1 + (p "RBY2" * (alpha w - p "RBY3")) * (p "RBY2" * (alpha w - p "RBY3"))) * a w)) as B.
  { assert (tw D n (fun w => sqrt (1 + (p "RBY2" * (alpha w - p "RBY3")) * (p "RBY2" * (alpha w - p "RBY3"))))) as Q by (apply (tw_root (fun w => p "RBY2" * (alpha w - p "RBY3"))); tw).
    apply (tw_mult D n (fun w => p "RBY1" * p "LYKA" / sqrt (1 + (p "RBY2" * (alpha w - p "RBY3")) * (p "RBY2" * (alpha w - p "RBY3")))) a); [|exact A].
    apply (tw_div D n (fun _ => p "RBY1" * p "LYKA") (fun w => sqrt (1 + (p "RBY2" * (alpha w - p "RBY3")) * (p "RBY2" * (alpha w - p "RBY3"))))); [intros; apply root_nz|tw|exact Q]. }
  pose proof (tw_bend D n _ _ N E B) as T. cbv beta in T. tw.
Qed.
Hypothesis OK : forall w, List.length w = n -> D w -> smooth_point p (f w) gamma (Fz w) (kappa w) (alpha w).
Lemma tw_long_at : tw D n (fun w => long_at (f w) (kappa w) (alpha w) (Fz w)).
Proof using TF TK TA OK.
  clear N0. pose proof tw_f as F. unfold long_at. cbv zeta.
  assert (tw D n (fun w => long_peak p (f w) gamma (Fz w))) as TD by (unfold long_peak; tw).
  assert (tw D n (fun w => nsign (long_peak p (f w) gamma (Fz w)))) as TS by (apply (tw_sign D n (fun w => long_peak p (f w) gamma (Fz w))); [intros w L H; apply (OK w L H)|exact TD]).
  assert (tw D n (fun w => long_stiffness p (f w) (Fz w))) as TKX. { unfold long_stiffness. assert (tw D n (fun w => exp (p "PKX3" * f w))) as TE by (apply (tw_exp' (fun w => p "PKX3" * f w)); tw). tw. }
  assert (tw D n (fun w => long_stiffness p (f w) (Fz w) / (p "PCX1" * p "LCX" * long_peak p (f w) gamma (Fz w) + p "epsilonx" * nsign (long_peak p (f w) gamma (Fz w))))) as TB.
  { apply (tw_div D n (fun w => long_stiffness p (f w) (Fz w)) (fun w => p "PCX1" * p "LCX" * long_peak p (f w) gamma (Fz w) + p "epsilonx" * nsign (long_peak p (f w) gamma (Fz w)))); [|exact TKX|tw].
    intros w L H. apply (OK w L H). apply nsign_is. }
  assert (tw D n (fun w => kappa w + long_shift p (f w))) as TX by (unfold long_shift; tw).
  assert (tw D n (fun w => long_offset p (f w) (Fz w))) as TO by (unfold long_offset; tw).
  assert (forall s, tw D n (fun w => long_curvature p (f w) s)) as TC by (intro s; unfold long_curvature; tw).
  pose proof (tw_sided D n (fun s w => long_curvature p (f w) s) _ _ (fun w L H => proj1 (sp_long_curvature _ _ _ _ _ _ (OK w L H))) (fun w L H => proj2 (sp_long_curvature _ _ _ _ _ _ (OK w L H))) (TC 1) (TC (-1)) TB TX) as TBE. cbv beta in TBE.
  assert (forall w, List.length w = n -> D w -> p "REX1" + p "REX2" * f w <> 1) as NL by (intros w L H; apply (OK w L H)).
  pose proof (tw_long_weight (fun w => alpha w + p "RHX1") NL ltac:(tw)) as W1. pose proof (tw_long_weight (fun _ => p "RHX1") NL ltac:(tw)) as W2. cbv beta in W1, W2.
  tw. intros w L H. apply (OK w L H).
Qed.
Lemma tw_lat_at : tw D n (fun w => lat_at (f w) (kappa w) (alpha w) (Fz w)).
Proof using TF TK TA OK.
  clear N0. pose proof tw_f as F. unfold lat_at. cbv zeta.
  assert (tw D n (fun w => lat_friction p (f w) gamma * Fz w)) as TD by (unfold lat_friction; tw).
  assert (tw D n (fun w => nsign (lat_friction p (f w) gamma * Fz w))) as TS by (apply (tw_sign D n (fun w => lat_friction p (f w) gamma * Fz w)); [intros w L H; apply (OK w L H)|exact TD]).
  assert (tw D n (fun w => lat_K (Fz w))) as TKY.
  { unfold lat_K. cbv zeta. assert (tw D n (fun w => Fz w / (p "LFZO" * p "FNOMIN" * p "PKY2"))) as TR by tw.
    apply (tw_div D n (fun w => p "PKY1" * (p "LFZO" * p "FNOMIN") * (1 - p "PKY3" * Rabs gamma) * p "LKY" * (2 * (Fz w / (p "LFZO" * p "FNOMIN" * p "PKY2")))) (fun w => 1 + Fz w / (p "LFZO" * p "FNOMIN" * p "PKY2") * (Fz w / (p "LFZO" * p "FNOMIN" * p "PKY2")))); [|tw|tw].
    intros w _ _. set (r := Fz w / _). nra. }
  assert (tw D n (fun w => lat_K (Fz w) / (p "PCY1" * p "LCY" * (lat_friction p (f w) gamma * Fz w) + p "epsilony" * nsign (lat_friction p (f w) gamma * Fz w)))) as TB.
  { apply (tw_div D n (fun w => lat_K (Fz w)) (fun w => p "PCY1" * p "LCY" * (lat_friction p (f w) gamma * Fz w) + p "epsilony" * nsign (lat_friction p (f w) gamma * Fz w))); [|exact TKY|].
    - intros w L H. apply (OK w L H). apply nsign_is.
    - apply (tw_plus D n (fun w => p "PCY1" * p "LCY" * (lat_friction p (f w) gamma * Fz w)) (fun w => p "epsilony" * nsign (lat_friction p (f w) gamma * Fz w))); [apply (tw_scal D n _ (fun w => lat_friction p (f w) gamma * Fz w)); exact TD|tw]. }
  assert (tw D n (fun w => alpha w + lat_shift p (f w) gamma)) as TX by (unfold lat_shift; tw).
  assert (tw D n (fun w => lat_offset p (f w) gamma (Fz w))) as TO by (unfold lat_offset; tw).
  assert (forall s, tw D n (fun w => lat_curvature p (f w) gamma s)) as TC by (intro s; unfold lat_curvature; tw).
  pose proof (tw_sided D n (fun s w => lat_curvature p (f w) gamma s) _ _ (fun w L H => proj1 (sp_lat_curvature _ _ _ _ _ _ (OK w L H))) (fun w L H => proj2 (sp_lat_curvature _ _ _ _ _ _ (OK w L H))) (TC 1) (TC (-1)) TB TX) as TBE. cbv beta in TBE.
  assert (forall w, List.length w = n -> D w -> p "REY1" + p "REY2" * f w <> 1) as NL by (intros w L H; apply (OK w L H)).
  pose proof (tw_lat_weight (fun w => kappa w + (p "RHY1" + p "RHY2" * f w)) NL ltac:(tw)) as W1. pose proof (tw_lat_weight (fun w => p "RHY1" + p "RHY2" * f w) NL ltac:(tw)) as W2. cbv beta in W1, W2.
  assert (tw D n (fun w => slip_side_force p (f w) (kappa w) (alpha w) gamma (Fz w))) as TV.
  { unfold slip_side_force, lat_friction. assert (tw D n (fun w => sqrt (1 + (p "RVY4" * alpha w) * (p "RVY4" * alpha w)))) as Q by (apply (tw_root (fun w => p "RVY4" * alpha w)); tw). tw. intros; apply root_nz. }
  assert (tw D n (fun w => lat_friction p (f w) gamma)) as TL by (unfold lat_friction; tw).
  tw. intros w L H. apply (OK w L H).
Qed.
End Mf.
