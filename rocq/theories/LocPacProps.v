(** C75: the forces of the MF5.2 tire have second derivatives where its curves have no kinks. *)
From Coq Require Import Ratan Rpower Lra Lia.
From Verif Require Import Base RBase VehModel LocSpec LocProofs LocProps LocCalc LocRaceSpec LocRaceProofs LocRaceProofs2 UtilsModel PacModel PacSpec PacProofs PacProps PacProps3 PacProps4 LocPacSpec LocPacProofs.
Import ListNotations.
Open Scope R_scope.

(** Whatever the load and the slips depend on: where they have second derivatives and the tire is at a smooth point, so do the forces that the tire returns. The camber angle is constant, as it is in the
    simple vehicle; zero slip is not excluded, although the curvature of the force curves jumps there. *)
Theorem C75_forces : forall opt_mode params p D n Fz kappa alpha vx gamma, given params opt_mode p -> p "LFZO" * p "FNOMIN" <> 0 ->
  has_second D n Fz -> has_second D n kappa -> has_second D n alpha ->
  (forall w, List.length w = n -> D w -> smooth_point p (Fz w / (p "LFZO" * p "FNOMIN") - 1) gamma (Fz w) (kappa w) (alpha w)) ->
  exists fx fy, has_second D n fx /\ has_second D n fy /\
    forall w inputs, List.length w = n -> D w -> mf_inputs inputs (Fz w) (kappa w) (alpha w) (vx w) gamma ->
      exists out, mf_forward opt_mode params inputs = Ok out /\ dget "Fx" out = Some (Some (fx w)) /\ dget "Fy" out = Some (Some (fy w)).
Proof.
  intros opt_mode params p D n Fz kappa alpha vx gamma GI N0 TF TK TA OK.
  exists (fun w => long_at p gamma (load_ratio p (Fz w)) (kappa w) (alpha w) (Fz w)), (fun w => lat_at p gamma (load_ratio p (Fz w)) (kappa w) (alpha w) (Fz w)).
  split; [now apply tw_long_at|]. split; [now apply tw_lat_at|]. intros w inputs L HD HI. specialize (OK w L HD).
  destruct (proj2 (C55_missing opt_mode params inputs)) as (out & E & _).
  - intros nm Hn. destruct HI as (A & B & C & E1 & E2). cbn [In] in Hn. destruct Hn as [<-|[<-|[<-|[<-|[<-|[]]]]]]; congruence.
  - intros nm Hn. rewrite (GI nm Hn). discriminate.
  - exists out. split; [exact E|]. destruct (C55_forces opt_mode params p inputs _ _ _ _ _ out GI HI E) as (A & B & _). split.
    + refine (proj1 (proj2 (A _ _ _) _)). exists (load_ratio p (Fz w)). split; [now apply ratio_is|]. apply (long_is p gamma). exact OK.
    + refine (proj1 (proj2 (B _ _ _) _)). exists (load_ratio p (Fz w)). eexists. split; [now apply ratio_is|]. apply (lat_is p gamma); [exact N0|exact OK].
Qed.
Print Assumptions C75_forces.

(** ** the smooth points are an open set *)
Lemma roomy_list : forall n fs D, roomy n D -> Forall (tw D n) fs -> roomy n (fun w => D w /\ Forall (fun f => f w <> 0) fs).
Proof.
  intros n fs. induction fs as [|f r IH]; intros D RM H.
  - apply (roomy_sub D); [|exact RM]. intros x _. split; [tauto|intro; split; [assumption|constructor]].
  - inversion H as [|? ? Hf Hr]; subst. apply (roomy_sub (fun w => (D w /\ Forall (fun g => g w <> 0) r) /\ f w <> 0)).
    + intros x _. split; [intros [A B]; inversion B; subst; tauto|intros [[A B] C]; split; [assumption|now constructor]].
    + apply roomy_nz; [now apply IH|]. apply (tw_sub D); [tauto|exact Hf].
Qed.
Lemma Rminus_diag_neq' : forall a b, a - b <> 0 -> a <> b.
Proof. intros a b H E. apply H. lra. Qed.
Theorem C75_open : forall p D n Fz kappa alpha gamma, has_second D n Fz -> has_second D n kappa -> has_second D n alpha -> roomy n D ->
  roomy n (fun w => D w /\ smooth_point p (Fz w / (p "LFZO" * p "FNOMIN") - 1) gamma (Fz w) (kappa w) (alpha w)).
Proof.
  intros p D n Fz kappa alpha gamma TF TK TA RM. change (fun w => D w /\ smooth_point p (load_ratio p (Fz w)) gamma (Fz w) (kappa w) (alpha w)) with (fun w => D w /\ smooth_point p (load_ratio p (Fz w)) gamma (Fz w) (kappa w) (alpha w)).
  fold (load_ratio p). set (f := fun w => load_ratio p (Fz w)). pose proof (tw_f p D n Fz TF) as F. fold f in F.
  set (g1 := [(fun w => long_peak p (f w) gamma (Fz w)); (fun w => long_curvature p (f w) 1 - 1); (fun w => long_curvature p (f w) (-1) - 1); (fun w => p "REX1" + p "REX2" * f w - 1); (fun _ => p "PKY2");
    (fun w => lat_friction p (f w) gamma * Fz w); (fun w => lat_curvature p (f w) gamma 1 - 1); (fun w => lat_curvature p (f w) gamma (-1) - 1); (fun w => p "REY1" + p "REY2" * f w - 1)]).
  assert (Forall (tw D n) g1) as G1 by (unfold g1, long_peak, long_curvature, lat_friction, lat_curvature; repeat (apply Forall_cons; [tw|]); constructor).
  pose proof (roomy_list n g1 D RM G1) as R1. set (D1 := fun w => D w /\ Forall (fun f => f w <> 0) g1) in *.
  assert (forall h, tw D n h -> tw D1 n h) as SB by (intros h; apply tw_sub; unfold D1; tauto).
  assert (forall w, D1 w -> long_peak p (f w) gamma (Fz w) <> 0 /\ p "REX1" + p "REX2" * f w <> 1 /\ lat_friction p (f w) gamma * Fz w <> 0 /\ p "REY1" + p "REY2" * f w <> 1) as K.
  { intros w [_ A]. unfold g1 in A. do 9 (apply Forall_cons_iff in A; destruct A as [? A]). repeat split; try assumption; lra. }
  assert (tw D1 n (fun w => p "PCX1" * p "LCX" * long_peak p (f w) gamma (Fz w) + p "epsilonx" * nsign (long_peak p (f w) gamma (Fz w)))) as S1.
  { inversion G1 as [|? ? TD _]; subst. apply SB in TD. pose proof (tw_sign D1 n _ (fun w _ H => proj1 (K w H)) TD) as TS. cbv beta in TS. tw. }
  assert (tw D1 n (fun w => p "PCY1" * p "LCY" * (lat_friction p (f w) gamma * Fz w) + p "epsilony" * nsign (lat_friction p (f w) gamma * Fz w))) as S2.
  { assert (tw D1 n (fun w => lat_friction p (f w) gamma * Fz w)) as TD by (apply SB; unfold lat_friction; tw). pose proof (tw_sign D1 n _ (fun w _ H => proj1 (proj2 (proj2 (K w H)))) TD) as TS. cbv beta in TS.
    apply (tw_plus D1 n (fun w => p "PCY1" * p "LCY" * (lat_friction p (f w) gamma * Fz w)) (fun w => p "epsilony" * nsign (lat_friction p (f w) gamma * Fz w))); [apply (tw_scal D1 n _ (fun w => lat_friction p (f w) gamma * Fz w)); exact TD|tw]. }
  pose proof (tw_long_weight p D1 n Fz kappa (SB _ TF) (SB _ TK) (fun _ => p "RHX1") (fun w _ H => proj1 (proj2 (K w H))) ltac:(tw)) as W1.
  assert (tw D1 n (fun w => p "RHY1" + p "RHY2" * f w)) as TH by (apply SB; tw).
  pose proof (tw_lat_weight p D1 n Fz alpha (SB _ TF) (SB _ TA) (fun w => p "RHY1" + p "RHY2" * f w) (fun w _ H => proj2 (proj2 (proj2 (K w H)))) TH) as W2. cbv beta in W1, W2.
  refine (roomy_sub _ _ n _ (roomy_list n [_; _; _; _] D1 R1 _)); [|apply Forall_cons; [exact S1|apply Forall_cons; [exact S2|apply Forall_cons; [exact W1|apply Forall_cons; [exact W2|constructor]]]]].
  intros w _. split.
  - intros [HD SP]. destruct SP as [A1 A2 [A3 A3'] A4 A5 A6 A7 A8 [A9 A9'] A10 A11]. split; [split; [exact HD|]|].
    + unfold g1, f. cbv beta. apply Forall_cons; [exact A1|]. apply Forall_cons; [intro E; apply A3; apply Rminus_diag_uniq; exact E|]. apply Forall_cons; [intro E; apply A3'; apply Rminus_diag_uniq; exact E|]. apply Forall_cons; [intro E; apply A4; apply Rminus_diag_uniq; exact E|].
      apply Forall_cons; [exact A6|]. apply Forall_cons; [exact A7|]. apply Forall_cons; [intro E; apply A9; apply Rminus_diag_uniq; exact E|]. apply Forall_cons; [intro E; apply A9'; apply Rminus_diag_uniq; exact E|]. apply Forall_cons; [intro E; apply A10; apply Rminus_diag_uniq; exact E|]. constructor.
    + apply Forall_cons; [apply A2, nsign_is|]. apply Forall_cons; [apply A8, nsign_is|]. apply Forall_cons; [exact A5|]. apply Forall_cons; [exact A11|constructor].
  - intros [[HD A] B]. unfold g1 in A. do 9 (apply Forall_cons_iff in A; destruct A as [? A]). do 4 (apply Forall_cons_iff in B; destruct B as [? B]). split; [exact HD|].
    assert (forall x s, sign_of x s -> s = nsign x) as US. { intros x s (P & Q & O). unfold nsign. destruct (Rlt_dec 0 x); [now apply P|]. destruct (Rlt_dec x 0); [now apply Q|]. apply O. lra. }
    constructor; try assumption; try (intros s HS; rewrite (US _ _ HS); assumption); try (split; apply Rminus_diag_neq'; assumption); try (apply Rminus_diag_neq'; assumption).
Qed.
Print Assumptions C75_open.

(** ** the default tire *)
Theorem C75_default : forall Fz kappa alpha, 3250 <= Fz <= 17300 -> smooth_point dp (Fz / (94166 / 10) - 1) 0 Fz kappa alpha.
Proof.
  intros Fz kappa alpha HF. fold (df Fz). assert (in_range Fz 0) as HR by (unfold in_range; lra). assert (100 <= Fz <= 204698 / 10) as HF' by lra.
  pose proof (d_long _ _ HR) as A. pose proof (d_lat _ _ HR) as B. pose proof (d_gx Fz kappa HF') as C. pose proof (d_gy Fz alpha HF') as E.
  assert (- (654866 / 1000000) <= df Fz <= 83719 / 100000) as HD by (unfold df; lra).
  assert (forall x s, 0 < x -> sign_of x s -> s = 1) as US by (intros x s P (Q & _); now apply Q).
  constructor.
  - lra.
  - intros s HS. rewrite (US _ _ A HS). dflt. lra.
  - unfold long_curvature. dflt. split; nra.
  - dflt. lra.
  - lra.
  - dflt. lra.
  - lra.
  - intros s HS. rewrite (US _ _ B HS). dflt. lra.
  - unfold lat_curvature. dflt. split; nra.
  - dflt. lra.
  - lra.
Qed.
Print Assumptions C75_default.

(** For the default tire at loads between 3250 N and 17300 N, as functions of load, longitudinal slip and slip angle: both forces have second derivatives everywhere, the slips being arbitrary. *)
Example C75_nonvacuous : let D := fun w : list R => 3250 < vget 0 w < 17300 in
  roomy 3 D /\ D [4000; 0; 0] /\ has_second D 3 (vget 0) /\ has_second D 3 (vget 1) /\ has_second D 3 (vget 2) /\
  exists fx fy, has_second D 3 fx /\ has_second D 3 fy /\ forall opt_mode w inputs vx, List.length w = 3%nat -> D w -> mf_inputs inputs (vget 0 w) (vget 1 w) (vget 2 w) vx 0 ->
    exists out, mf_forward opt_mode mf_default inputs = Ok out /\ dget "Fx" out = Some (Some (fx w)) /\ dget "Fy" out = Some (Some (fy w)).
Proof.
  intro D. assert (roomy 3 D) as RD.
  { intros x k L HD Hk. exists (Rmin (vget 0 x - 3250) (17300 - vget 0 x)). split; [apply Rmin_pos; unfold D in HD; lra|]. intros t Ht. unfold D in *. destruct (Nat.eq_dec k 0) as [->|N].
    - rewrite vget_upd_same by lia. pose proof (Rmin_l (vget 0 x - 3250) (17300 - vget 0 x)). pose proof (Rmin_r (vget 0 x - 3250) (17300 - vget 0 x)). apply Rabs_def2 in Ht. lra.
    - rewrite vget_upd_other by congruence. exact HD. }
  split; [exact RD|]. split; [unfold D, vget; cbn; lra|]. split; [apply tw_coord|]. split; [apply tw_coord|]. split; [apply tw_coord|].
  assert (dp "LFZO" * dp "FNOMIN" = 94166 / 10) as N0 by (dflt; lra).
  assert (forall w, List.length w = 3%nat -> D w -> smooth_point dp (vget 0 w / (dp "LFZO" * dp "FNOMIN") - 1) 0 (vget 0 w) (vget 1 w) (vget 2 w)) as SP.
  { intros w L HD. rewrite N0. apply C75_default. unfold D in HD. lra. }
  assert (forall opt_mode, exists fx fy, has_second D 3 fx /\ has_second D 3 fy /\ forall w inputs vx, List.length w = 3%nat -> D w -> mf_inputs inputs (vget 0 w) (vget 1 w) (vget 2 w) vx 0 ->
    exists out, mf_forward opt_mode mf_default inputs = Ok out /\ dget "Fx" out = Some (Some (fx w)) /\ dget "Fy" out = Some (Some (fy w))) as K.
  { intro o. destruct (C75_forces o mf_default dp D 3 (vget 0) (vget 1) (vget 2) (vget 3) 0 (dp_given o) ltac:(rewrite N0; lra) (tw_coord _ _ 0) (tw_coord _ _ 1) (tw_coord _ _ 2) SP) as (fx & fy & A & B & _).
    exists (fun w => long_at dp 0 (load_ratio dp (vget 0 w)) (vget 1 w) (vget 2 w) (vget 0 w)), (fun w => lat_at dp 0 (load_ratio dp (vget 0 w)) (vget 1 w) (vget 2 w) (vget 0 w)).
    assert (dp "LFZO" * dp "FNOMIN" <> 0) as N1 by (rewrite N0; lra).
    split; [apply (tw_long_at dp 0 D 3 (vget 0) (vget 1) (vget 2)); try apply tw_coord; exact SP|]. split; [apply (tw_lat_at dp 0 D 3 (vget 0) (vget 1) (vget 2)); try apply tw_coord; exact SP|].
    intros w inputs vx L HD HI. destruct (proj2 (C55_missing o mf_default inputs)) as (out & E & _).
    - intros nm Hn. destruct HI as (A1 & B1 & C1 & E1 & E2). cbn [In] in Hn. destruct Hn as [<-|[<-|[<-|[<-|[<-|[]]]]]]; congruence.
    - intros nm Hn. rewrite (dp_given o nm Hn). discriminate.
    - exists out. split; [exact E|]. destruct (C55_forces o mf_default dp inputs _ _ _ _ _ out (dp_given o) HI E) as (P1 & P2 & _). split.
      + refine (proj1 (proj2 (P1 _ _ _) _)). exists (load_ratio dp (vget 0 w)). split; [now apply ratio_is|]. apply (long_is dp 0). now apply SP.
      + refine (proj1 (proj2 (P2 _ _ _) _)). exists (load_ratio dp (vget 0 w)). eexists. split; [now apply ratio_is|]. apply (lat_is dp 0); [exact N1|now apply SP]. }
  destruct (K true) as (fx & fy & A & B & H). destruct (K false) as (gx & gy & _ & _ & H'). clear K. exists fx, fy. split; [exact A|]. split; [exact B|]. intros o w inputs vx L HD HI.
  destruct (H w inputs vx L HD HI) as (out & E & X1 & X2). destruct o; [eauto|]. destruct (H' w inputs vx L HD HI) as (out' & E' & Y1 & Y2). exists out'. split; [exact E'|].
  destruct (C55_mode mf_default inputs out out' E E') as (SM & _). rewrite <- !SM by (cbn; tauto). split; assumption.
Qed.
