(** C74: the derivatives of the laptime simulation with the aero models of the package: constant coefficients, Gaussian process, neural network. *)
From Verif Require Import Base RBase TreeModel UtilsModel IoModel NlpModel OcpModel BuildModel BuildSpec BuildProofs2 AlgModel AlgSpec VehModel VehSpec VehProps KinModel TireModel AeroModel AeroProps RaceModel RaceSpec DomSpec
  JaxSpec LocSpec LocJaxSpec LocProofs LocProps LocCalc LocRaceSpec LocRaceProofs LocRaceProofs2 LocRaceProofs3 LocRaceProps LocRaceProps2.
Import ListNotations.
Open Scope R_scope.

(** ** exp, tanh, sums *)
Section Calc.
Variables (D : list R -> Prop) (n : nat).
Lemma tw_exp : forall f, tw D n f -> tw D n (fun x => exp (f x)).
Proof using. intros f A. apply (tw_comp D n exp exp exp); [|exact A]. intros x _ _. split; apply derivable_pt_lim_exp. Qed.
Lemma tw_tanh : forall f, tw D n f -> tw D n (fun x => tanh (f x)).
Proof using.
  intros f A. unfold tanh, sinh, cosh. assert (tw D n (fun x => exp (f x))) as P by now apply tw_exp. assert (tw D n (fun x => exp (- f x))) as Q by (apply (tw_exp (fun x => - f x)); now apply tw_opp).
  apply (tw_div D n (fun x => (exp (f x) - exp (- f x)) / 2) (fun x => (exp (f x) + exp (- f x)) / 2)); [|tw|tw].
  intros x _ _. pose proof (exp_pos (f x)). pose proof (exp_pos (- f x)). lra.
Qed.
Lemma tw_vdot : forall row fs, Forall (tw D n) fs -> tw D n (fun w => vdot row (map (fun f => f w) fs)).
Proof using.
  intros row fs H. unfold vdot. revert row. induction H as [|f fs Hf _ IH]; intros [|r row]; cbn [map]; unfold vmul; cbn [map2 rsum]; try apply tw_const.
  apply (tw_plus D n (fun w => r * f w) (fun w => rsum (vmul row (map (fun f => f w) fs)))); [now apply tw_scal|apply IH].
Qed.
(** the layers of a network, seen as functions of the row *)
Lemma mlp_tw : forall ws fs m, Forall (tw D n) fs -> fits (List.length fs) ws m ->
  exists fs', Forall (tw D n) fs' /\ forall w, mlp (map (fun f => f w) fs) ws = Ok (map (fun f => f w) fs').
Proof using.
  induction ws as [|l ws IH]; intros fs m F H; [exists fs; split; [exact F|reflexivity]|]. cbn [fits] in H. destruct H as [H1 H2].
  set (gs := map (fun row w => tanh (vdot row (map (fun f => f w) fs))) l). destruct (IH gs m) as (fs' & F' & E).
  - apply Forall_forall. intros g Hg. apply in_map_iff in Hg. destruct Hg as (row & <- & _). apply (tw_tanh (fun w => vdot row (map (fun f => f w) fs))). now apply tw_vdot.
  - unfold gs. now rewrite map_length.
  - exists fs'. split; [exact F'|]. intro w. rewrite <- E. unfold mlp. cbn [foldM]. rewrite (matvec_ok l); [|now rewrite map_length]. cbn [fmap bind]. unfold gs. now rewrite !map_map.
Qed.
Lemma gp_tw : forall points row (a b c : list R -> R), tw D n a -> tw D n b -> tw D n c -> Forall (fun p => List.length p = 3%nat) points -> tw D n (fun w => vdot row (map (fun p => rbf p [a w; b w; c w]) points)).
Proof using.
  intros points row a b c A B C F. assert (forall w, map (fun p => rbf p [a w; b w; c w]) points = map (fun f => f w) (map (fun p w => rbf p [a w; b w; c w]) points)) as E by (intro w; now rewrite map_map).
  apply (tw_eq D n (fun w => vdot row (map (fun f => f w) (map (fun p w => rbf p [a w; b w; c w]) points)))); [intro w; now rewrite E|]. apply tw_vdot. apply Forall_forall. intros f Hf. apply in_map_iff in Hf. destruct Hf as (p & <- & Hp).
  rewrite Forall_forall in F. specialize (F p Hp). destruct p as [|p0 [|p1 [|p2 [|? ?]]]]; try discriminate. unfold rbf, sqdist, vsub. cbn [map2 map rsum].
  apply (tw_exp (fun w => - ((p0 - a w) * (p0 - a w) + ((p1 - b w) * (p1 - b w) + ((p2 - c w) * (p2 - c w) + 0))))). tw.
Qed.
End Calc.

(** ** the aero models of the package, as they are in the parameters in force *)
Inductive packaged_aero : (dict R -> result (dict R)) -> Prop :=
| Constant params : NoDup (keys params) -> incl aero_outputs (keys params) -> packaged_aero (const_aero params)
| Process points alpha : Forall (fun p => List.length p = 3%nat) points -> Forall (fun row => List.length row = List.length points) alpha -> (3 <= List.length alpha)%nat -> packaged_aero (gp_aero points alpha)
| Network params m : fits 3 (dict_to_list params) m -> (3 <= m)%nat -> packaged_aero (mlp_aero params).
(** Each of them computes coefficients with second derivatives, and returns them under the declared names. *)
Theorem C74_aero : forall f, packaged_aero f -> exists aero, smooth_aero aero /\
  forall a b c, exists d, f [("front_ride_height", a); ("rear_ride_height", b); ("yaw", c)] = Ok d /\ NoDup (keys d) /\ incl aero_outputs (keys d) /\ dget "Cx" d = Some (fst (aero a b c)) /\ dget "Cz" d = Some (snd (aero a b c)).
Proof.
  assert (forall l, (3 <= List.length l)%nat -> exists d, name_outputs l = Ok d /\ NoDup (keys d) /\ incl aero_outputs (keys d) /\ dget "Cx" d = Some (vget 0 l) /\ dget "Cz" d = Some (vget 2 l)) as NO.
  { intros l Hl. destruct l as [|x [|y [|z r]]]; cbn in Hl; try lia. rewrite three_outputs. eexists. split; [reflexivity|]. split; [cbn; repeat constructor; cbn; intuition discriminate|]. split; [intros k Hk; exact Hk|]. split; reflexivity. }
  intros f H. destruct H as [params ND IC|points alpha Fp Fa La|params m F Hm].
  - destruct (proj2 (dget_some_iff _ "Cx" params) ltac:(apply IC; cbn; tauto)) as [x Hx]. destruct (proj2 (dget_some_iff _ "Cz" params) ltac:(apply IC; cbn; tauto)) as [z Hz].
    exists (constant_aero x z). split; [apply constant_smooth|]. intros a b c. exists params. split; [reflexivity|]. split; [exact ND|]. split; [exact IC|]. split; assumption.
  - set (out := fun a b c => map (fun row => vdot row (map (fun p => rbf p [a; b; c]) points)) alpha). exists (fun a b c => (vget 0 (out a b c), vget 2 (out a b c))). split.
    + intros D n a b c A B C. cbn [fst snd]. unfold out, vget. destruct alpha as [|r0 [|r1 [|r2 rs]]]; cbn in La; try lia. cbn [map nth]. split; apply gp_tw; assumption.
    + intros a b c. destruct (NO (out a b c)) as (d & E & K); [unfold out; now rewrite map_length|]. exists d. split; [|exact K]. rewrite <- E.
      destruct (C49_names [("front_ride_height", a); ("rear_ride_height", b); ("yaw", c)] a b c eq_refl eq_refl eq_refl) as (_ & G & _). rewrite G. unfold gp.
      assert (forallb (fun p => Nat.eqb (List.length p) (List.length [a; b; c])) points = true) as -> by (apply forallb_forall; intros p Hp; rewrite Forall_forall in Fp; apply Nat.eqb_eq; now apply Fp).
      rewrite matvec_ok by (now rewrite map_length). reflexivity.
  - set (out := fun a b c => match mlp [a; b; c] (dict_to_list params) with Ok l => l | Raise _ => [] end). exists (fun a b c => (vget 0 (out a b c), vget 2 (out a b c))). split.
    + intros D n a b c A B C. cbn [fst snd]. destruct (mlp_tw D n (dict_to_list params) [a; b; c] m) as (fs & Ffs & E); [repeat constructor; assumption|exact F|]. cbn [map] in E.
      split; [apply (tw_eq D n (fun w => vget 0 (map (fun f => f w) fs)))|apply (tw_eq D n (fun w => vget 2 (map (fun f => f w) fs)))]; try (intro w; unfold out; now rewrite E).
      * destruct fs as [|f0 r]; [exact (tw_const D n 0)|]. inversion Ffs as [|? ? F0 _]; subst. exact F0.
      * destruct fs as [|f0 [|f1 [|f2 r]]]; try exact (tw_const D n 0). inversion Ffs as [|? ? _ F1]; subst. inversion F1 as [|? ? _ F2]; subst. inversion F2 as [|? ? F3 _]; subst. exact F3.
    + intros a b c. destruct (C49_names [("front_ride_height", a); ("rear_ride_height", b); ("yaw", c)] a b c eq_refl eq_refl eq_refl) as (G & _ & _). rewrite G.
      assert (exists l, mlp [a; b; c] (dict_to_list params) = Ok l /\ List.length l = m) as (l & E & Ll).
      { destruct (dict_to_list params) as [|w ws] eqn:ED; [cbn in F; exists [a; b; c]; split; [reflexivity|exact F]|]. destruct (C49_mlp (w :: ws) [a; b; c] m ltac:(discriminate) F) as (y & E & L & _). now exists y. }
      unfold out. rewrite E. cbn [bind]. apply NO. lia.
Qed.
(** So for a vehicle with Perantoni's tires and any of the aero models of the package there is a domain - where the equations are defined, with the lift of that aero model - that is open and on which all derivatives and
    the outputs used have second derivatives; by C72_lap the derivatives given to IPOPT are exact there. *)
Theorem C74_equations : forall P tire_out tire_f aero_f (own : P -> dict R) jac hess js hs con p v t, own_params (own p) v -> packaged_aero (aero_f p) ->
  (forall c Fz kappa alpha vx gamma, exists d, tire_f p c [("Fz", Fz); ("kappa", kappa); ("alpha", alpha); ("vx", vx); ("gamma", gamma)] = Ok d /\ NoDup (keys d) /\ incl tire_out (keys d) /\
    dget "Fx" d = Some (Fx (perantoni t Fz kappa alpha vx gamma)) /\ dget "Fy" d = Some (Fy (perantoni t Fz kappa alpha vx gamma))) ->
  incl con (map (fun nm => prefixed "vehicle" nm) veh_outputs) ->
  let M := race_model tire_out aero_outputs tire_f aero_f own jac hess js hs in
  exists aero, smooth_aero aero /\ realizes tire_out aero_outputs tire_f aero_f own p v aero (perantoni_tires t) /\
    open_domain M (race_domain v t aero) /\ twice_differentiable_on M (race_domain v t aero) con p.
Proof.
  intros P to tf af own jac hess js hs con p v t OP PA TR IC M. destruct (C74_aero (af p) PA) as (aero & SA & H).
  assert (realizes to aero_outputs tf af own p v aero (perantoni_tires t)) as RZ by (constructor; [exact OP|exact H|exact TR]).
  exists aero. split; [exact SA|]. split; [exact RZ|]. destruct (C72_equations P to aero_outputs tf af own jac hess js hs con p v t aero 0 SA RZ IC) as (A & B & _). split; assumption.
Qed.
Print Assumptions C74_aero.
Print Assumptions C74_equations.
(** networks and processes of the right shape exist, and are not constant *)
Example C74_nonvacuous : packaged_aero (gp_aero [[0; 0; 0]] [[1]; [0]; [2]]) /\ packaged_aero (mlp_aero [("weights_layer_0", [[1; 0; 0]; [0; 1; 0]; [0; 0; 1]])]) /\
  packaged_aero (const_aero [("Cx", 6 / 10); ("Cy", 0); ("Cz", 19 / 10)]) /\
  exists d d', gp_aero [[0; 0; 0]] [[1]; [0]; [2]] [("front_ride_height", 0); ("rear_ride_height", 0); ("yaw", 0)] = Ok d /\ gp_aero [[0; 0; 0]] [[1]; [0]; [2]] [("front_ride_height", 1); ("rear_ride_height", 0); ("yaw", 0)] = Ok d' /\
    dget "Cx" d = Some 1 /\ exists x, dget "Cx" d' = Some x /\ x < 1.
Proof.
  split; [apply Process; repeat constructor|]. split; [apply (Network _ 3); [cbn; repeat split; repeat constructor|lia]|]. split; [apply Constant; [cbn; repeat constructor; cbn; intuition discriminate|intros k Hk; exact Hk]|].
  eexists. eexists. split; [reflexivity|]. split; [reflexivity|]. cbn. unfold rbf, sqdist, vsub, vdot, vmul. cbn [map2 map rsum]. split.
  - f_equal. replace (- ((0 - 0) * (0 - 0) + ((0 - 0) * (0 - 0) + ((0 - 0) * (0 - 0) + 0)))) with 0 by ring. rewrite exp_0. ring.
  - eexists. split; [reflexivity|]. replace (- ((0 - 1) * (0 - 1) + ((0 - 0) * (0 - 0) + ((0 - 0) * (0 - 0) + 0)))) with (-1) by ring. rewrite Rmult_1_l, Rplus_0_r. rewrite <- exp_0. apply exp_increasing. lra.
Qed.
