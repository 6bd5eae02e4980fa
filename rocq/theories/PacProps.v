(** C55: the MF5.2 tire model. *)
From Coq Require Import Ratan Rpower.
From Verif Require Import Base RBase UtilsModel PacModel PacSpec PacProofs.

Definition mf_inputs (d : dict R) (Fz kappa alpha vx gamma : R) : Prop :=
  dget "Fz" d = Some Fz /\ dget "kappa" d = Some kappa /\ dget "alpha" d = Some alpha /\ dget "vx" d = Some vx /\ dget "gamma" d = Some gamma.

(** ** Parameters *)
Lemma need_iff : forall names (d : dict R), need names d = Ok tt <-> forall n, In n names -> dget n d <> None.
Proof.
  intros names d. unfold need. destruct (forallb _ names) eqn:E.
  - split; [|reflexivity]. intros _ n Hn. rewrite forallb_forall in E. specialize (E n Hn). unfold dmem in E. destruct (dget n d); congruence.
  - split; [discriminate|]. intro H. exfalso. assert (forallb (fun n => dmem n d) names = true) as X; [|congruence]. apply forallb_forall. intros n Hn. specialize (H n Hn). unfold dmem. destruct (dget n d); congruence.
Qed.
Definition read_names (opt_mode : bool) : list string := basic_params ++ Fx0_params ++ Fx_params ++ Fy0_params ++ Fy_params ++ if opt_mode then [] else Mx_params ++ My_params ++ Mz_params.
Lemma same_names : forall opt_mode n, In n (read_names opt_mode) <-> In n (force_names ++ if opt_mode then [] else moment_names).
Proof.
  assert (forall l l' : list string, forallb (fun n => existsb (String.eqb n) l') l = true -> forall n, In n l -> In n l') as K.
  { intros l l' H n Hn. rewrite forallb_forall in H. specialize (H n Hn). apply existsb_exists in H. destruct H as (m & Hm & E). apply String.eqb_eq in E. now subst m. }
  intros opt_mode n. split; apply K; destruct opt_mode; vm_compute; reflexivity.
Qed.
Lemma forward_is : forall (opt_mode : bool) (params inputs : dict R) (Fz kappa alpha vx gamma : R), mf_inputs inputs Fz kappa alpha vx gamma -> (forall n, In n (force_names ++ if opt_mode then [] else moment_names) -> dget n params <> None) ->
  mf_forward opt_mode params inputs = let r := do_force_and_moments (prm params) opt_mode kappa alpha gamma vx Fz in
    Ok [("Fx", r_Fx r); ("Fy", r_Fy r); ("Mx", r_Mx r); ("My", r_My r); ("Mz", r_Mz r); ("Kxk", r_Kxk r); ("Gxa", r_Gxa r); ("Kya", r_Kya r); ("Gyk", r_Gyk r);
      ("GSum", let? g := r_Gyk r in let? h := r_Gxa r in Some (sqrt (g ^ 2 + h ^ 2)))].
Proof.
  intros opt_mode params inputs Fz kappa alpha vx gamma (H1 & H2 & H3 & H4 & H5) HP. unfold mf_forward, lookup_err. rewrite H1, H2, H3, H4, H5. cbn [bind].
  fold (read_names opt_mode). assert (need (read_names opt_mode) params = Ok tt) as ->; [|reflexivity]. apply need_iff. intros n Hn. apply HP. now apply same_names.
Qed.
(** Forward fails, with a KeyError, exactly if an input or one of the named parameters is missing; otherwise it returns the ten declared outputs.  In optimization mode the
    parameters of the moments are not needed. *)
Theorem C55_missing : forall (opt_mode : bool) (params inputs : dict R),
  ((exists n, In n ["Fz"; "kappa"; "alpha"; "vx"; "gamma"] /\ dget n inputs = None) \/ (exists n, In n (force_names ++ if opt_mode then [] else moment_names) /\ dget n params = None) -> mf_forward opt_mode params inputs = Raise KeyError) /\
  ((forall n, In n ["Fz"; "kappa"; "alpha"; "vx"; "gamma"] -> dget n inputs <> None) -> (forall n, In n (force_names ++ if opt_mode then [] else moment_names) -> dget n params <> None) ->
   exists out, mf_forward opt_mode params inputs = Ok out /\ keys out = ["Fx"; "Fy"; "Mx"; "My"; "Mz"; "Kxk"; "Gxa"; "Kya"; "Gyk"; "GSum"]).
Proof.
  intros opt_mode params inputs. split.
  - intros [(n & Hn & E)|(n & Hn & E)].
    + unfold mf_forward, lookup_err. cbn [In] in Hn. destruct Hn as [<-|[<-|[<-|[<-|[<-|[]]]]]]; destruct (dget "gamma" inputs), (dget "vx" inputs), (dget "Fz" inputs), (dget "kappa" inputs), (dget "alpha" inputs); cbn [bind]; try discriminate; reflexivity.
    + unfold mf_forward, lookup_err. destruct (dget "gamma" inputs), (dget "vx" inputs), (dget "Fz" inputs), (dget "kappa" inputs), (dget "alpha" inputs); cbn [bind]; try reflexivity. fold (read_names opt_mode).
      destruct (need (read_names opt_mode) params) as [[]|e] eqn:EN.
      * rewrite need_iff in EN. exfalso. apply (EN n); [now apply same_names|exact E].
      * unfold need in EN. destruct (forallb _ _); [discriminate|]. injection EN as <-. reflexivity.
  - intros HI HP. assert (forall n, In n ["Fz"; "kappa"; "alpha"; "vx"; "gamma"] -> exists v, dget n inputs = Some v) as HV by (intros n Hn; specialize (HI n Hn); destruct (dget n inputs); [eauto|congruence]).
    destruct (HV "Fz" ltac:(cbn; tauto)) as (a & Ea). destruct (HV "kappa" ltac:(cbn; tauto)) as (b & Eb). destruct (HV "alpha" ltac:(cbn; tauto)) as (c & Ec). destruct (HV "vx" ltac:(cbn; tauto)) as (d & Ed). destruct (HV "gamma" ltac:(cbn; tauto)) as (e & Ee).
    rewrite (forward_is opt_mode params inputs a b c d e); [|repeat split; assumption|exact HP]. cbv zeta. eexists. split; [reflexivity|]. reflexivity.
Qed.
Print Assumptions C55_missing.

(** only the named parameters count *)
Ltac ext H := repeat match goal with |- context [?p ?n] => lazymatch type of H with forall m, In m _ -> p m = _ => rewrite (H n) by (cbn; tauto) end end.
Lemma do_ext : forall (opt_mode : bool) p q kappa alpha gamma vx Fz, (forall n, In n (force_names ++ if opt_mode then [] else moment_names) -> p n = q n) ->
  do_force_and_moments p opt_mode kappa alpha gamma vx Fz = do_force_and_moments q opt_mode kappa alpha gamma vx Fz.
Proof.
  intros opt_mode p q kappa alpha gamma vx Fz H. assert (forall n, In n force_names -> p n = q n) as HF by (intros n Hn; apply H, in_or_app; now left).
  unfold do_force_and_moments. assert (calculate_basic p alpha vx gamma Fz = calculate_basic q alpha vx gamma Fz) as -> by (unfold calculate_basic; ext HF; reflexivity). destruct (calculate_basic q alpha vx gamma Fz) as [b|]; [|reflexivity].
  assert (calculate_Fx0 p b kappa gamma Fz = calculate_Fx0 q b kappa gamma Fz) as -> by (unfold calculate_Fx0; ext HF; reflexivity). destruct (calculate_Fx0 q b kappa gamma Fz) as [[Fx0 mux] Kxk].
  assert (calculate_Fx p b kappa Fx0 = calculate_Fx q b kappa Fx0) as -> by (unfold calculate_Fx; ext HF; reflexivity). destruct (calculate_Fx q b kappa Fx0) as [Fx Gxa].
  assert (calculate_Fy0 p b Fz = calculate_Fy0 q b Fz) as -> by (unfold calculate_Fy0; ext HF; reflexivity). set (l := calculate_Fy0 q b Fz).
  assert (calculate_Fy p b Fz kappa (Fy0 l) (muy l) = calculate_Fy q b Fz kappa (Fy0 l) (muy l)) as -> by (unfold calculate_Fy; ext HF; reflexivity). destruct (calculate_Fy q b Fz kappa (Fy0 l) (muy l)) as [[Fy Gyk] SVyk].
  destruct opt_mode; [reflexivity|]. assert (forall n, In n (force_names ++ moment_names) -> p n = q n) as HM by exact H. clear H.
  assert (calculate_Mx p gamma Fz Fy = calculate_Mx q gamma Fz Fy) as -> by (unfold calculate_Mx; ext HM; reflexivity).
  assert (calculate_My p Fz vx Fx = calculate_My q Fz vx Fx) as -> by (unfold calculate_My; ext HM; reflexivity).
  assert (calculate_Mz p b kappa alpha gamma Fz vx Fx Kxk Fy l SVyk = calculate_Mz q b kappa alpha gamma Fz vx Fx Kxk Fy l SVyk) as -> by (unfold calculate_Mz; ext HM; reflexivity).
  reflexivity.
Qed.
Lemma given_forward : forall opt_mode params p inputs Fz kappa alpha vx gamma, given params opt_mode p -> mf_inputs inputs Fz kappa alpha vx gamma ->
  mf_forward opt_mode params inputs = let r := do_force_and_moments p opt_mode kappa alpha gamma vx Fz in
    Ok [("Fx", r_Fx r); ("Fy", r_Fy r); ("Mx", r_Mx r); ("My", r_My r); ("Mz", r_Mz r); ("Kxk", r_Kxk r); ("Gxa", r_Gxa r); ("Kya", r_Kya r); ("Gyk", r_Gyk r);
      ("GSum", let? g := r_Gyk r in let? h := r_Gxa r in Some (sqrt (g ^ 2 + h ^ 2)))].
Proof.
  intros opt_mode params p inputs Fz kappa alpha vx gamma GI HI. rewrite (forward_is opt_mode params inputs Fz kappa alpha vx gamma HI) by (intros n Hn; rewrite (GI n Hn); discriminate).
  rewrite (do_ext opt_mode (prm params) p kappa alpha gamma vx Fz); [reflexivity|]. intros n Hn. unfold prm. now rewrite (GI n Hn).
Qed.

(** ** The outputs are the solution of the MF5.2 equations *)
Theorem C55_equations : forall opt_mode params p inputs Fz kappa alpha vx gamma, given params opt_mode p -> mf_inputs inputs Fz kappa alpha vx gamma -> (opt_mode = false -> 0 <= p "epsilonv") ->
  forall Fx Fy Mx My Mz Kxk Gxa Kya Gyk GSum,
  mf_forward opt_mode params inputs = Ok [("Fx", Some Fx); ("Fy", Some Fy); ("Mx", Some Mx); ("My", Some My); ("Mz", Some Mz); ("Kxk", Some Kxk); ("Gxa", Some Gxa); ("Kya", Some Kya); ("Gyk", Some Gyk); ("GSum", Some GSum)]
  <-> mf52 p opt_mode Fz kappa alpha vx gamma Fx Fy Mx My Mz Kxk Gxa Kya Gyk GSum.
Proof.
  intros opt_mode params p inputs Fz kappa alpha vx gamma GI HI HE Fx Fy Mx My Mz Kxk Gxa Kya Gyk GSum. rewrite (given_forward opt_mode params p inputs Fz kappa alpha vx gamma GI HI). cbv zeta. set (r := do_force_and_moments p opt_mode kappa alpha gamma vx Fz).
  assert (forall A B, sqrt (A ^ 2 + B ^ 2) = GSum <-> 0 <= GSum /\ GSum * GSum = A * A + B * B) as HS.
  { intros A B. pose proof (Rle_0_sqr A). pose proof (Rle_0_sqr B). unfold Rsqr in *. replace (A ^ 2 + B ^ 2) with (A * A + B * B) by ring. split; [intros <-; split; [apply sqrt_pos|apply sqrt_sqrt; lra]|]. intros [Q E]. rewrite <- E. now apply sqrt_square. }
  transitivity (r_Fx r = Some Fx /\ r_Fy r = Some Fy /\ r_Mx r = Some Mx /\ r_My r = Some My /\ r_Mz r = Some Mz /\ r_Kxk r = Some Kxk /\ r_Gxa r = Some Gxa /\ r_Kya r = Some Kya /\ r_Gyk r = Some Gyk /\ sqrt (Gyk ^ 2 + Gxa ^ 2) = GSum).
  { split.
    - remember (let? g := r_Gyk r in let? h := r_Gxa r in Some (sqrt (g ^ 2 + h ^ 2))) as gs eqn:EG. intro H. injection H as H1 H2 H3 H4 H5 H6 H7 H8 H9 H10. rewrite H9, H7, H10 in EG. cbn [obind] in EG. assert (sqrt (Gyk ^ 2 + Gxa ^ 2) = GSum) by congruence. repeat split; assumption.
    - intros (H1 & H2 & H3 & H4 & H5 & H6 & H7 & H8 & H9 & H10). rewrite H1, H2, H3, H4, H5, H6, H7, H8, H9. cbn [obind]. now rewrite H10. }
  rewrite HS. unfold r, do_force_and_moments, mf52. clear r HS. destruct (calculate_basic p alpha vx gamma Fz) as [b|] eqn:EB.
  2:{ split; [intros (H & _); discriminate|]. intros (f & B & (H & _) & _). apply basic_none in EB. contradiction. }
  apply basic_ok in EB. destruct EB as (f & LC & ->). pose proof (proj1 LC) as HN.
  assert (forall f', load_change p Fz f' -> f' = f) as UF. { intros f' (_ & E'). destruct LC as [_ E]. rewrite E in E'. apply Rmult_eq_reg_l in E'; [lra|exact HN]. }
  pose proof (long_ok p f alpha vx gamma kappa Fz Fx Kxk Gxa) as LO. pose proof (fun B => lat_ok p f alpha vx gamma kappa Fz Fy Kya Gyk B HN) as AO. pose proof (over_ok p gamma Fz Fy Mx) as OO. pose proof (roll_ok p Fz vx Fx My) as RO.
  pose proof (fun B Kx => align_ok p f alpha vx gamma kappa Fz Fx Kx Fy Kya B Mz) as ZO. cbv zeta in LO, AO, ZO.
  destruct (calculate_Fx0 p (the_basic p f alpha vx gamma) kappa gamma Fz) as [[Fx0 mux] K] eqn:E1. cbn [fst snd] in LO. destruct (calculate_Fx p (the_basic p f alpha vx gamma) kappa Fx0) as [fx ga] eqn:E2. cbn [fst snd] in LO.
  set (l := calculate_Fy0 p (the_basic p f alpha vx gamma) Fz) in *. destruct (calculate_Fy p (the_basic p f alpha vx gamma) Fz kappa (Fy0 l) (muy l)) as [[fy gy] sv] eqn:E3. cbn [fst snd] in AO, ZO. cbn [r_Fx r_Fy r_Mx r_My r_Mz r_Kxk r_Gxa r_Kya r_Gyk].
  split.
  - intros (H1 & H2 & H3 & H4 & H5 & H6 & H7 & H8 & H9 & H10). injection H6 as H6. assert (exists B, By l = Some B) as (B & HB).
    { assert (fy = let? g := gy in let? v := Fy0 l in Some (g * v + sv)) as EF by (unfold calculate_Fy in E3; now injection E3 as <- <- <-). rewrite H2, H9 in EF. cbn [obind] in EF. destruct (Fy0 l) as [v|] eqn:EV; [|discriminate].
      unfold l, calculate_Fy0 in EV |- *. cbn [Fy0 By] in EV |- *. apply obind_some in EV. destruct EV as (B & HB & _). exists B. exact HB. }
    exists f, B. split; [exact LC|]. split; [apply LO; auto|]. split; [apply AO; auto|]. split; [exact H10|]. destruct opt_mode; [injection H3 as <-; injection H4 as <-; injection H5 as <-; auto|].
    rewrite H2 in H3, H5. rewrite H1 in H4, H5. split; [now apply OO|]. split; [now apply RO|]. rewrite <- H6. apply (ZO B K); auto.
  - intros (f' & B & L' & H1 & H2 & H3 & H4). rewrite (UF f' L') in *. apply LO in H1. destruct H1 as (H1 & H5 & H6). apply AO in H2. destruct H2 as (H2 & H7 & H8 & H9). split; [exact H1|]. split; [exact H2|].
    destruct opt_mode.
    + destruct H4 as (-> & -> & ->). rewrite H6. repeat split; auto; apply H3.
    + destruct H4 as (H10 & H11 & H12). rewrite H2, H1. split; [now apply OO|]. split; [now apply RO|]. rewrite H6. split; [apply (ZO B Kxk); auto|]. repeat split; auto; apply H3.
Qed.
Print Assumptions C55_equations.

(** Both modes compute the same forces, stiffnesses and weights; the moments of the optimization mode are 0. *)
Theorem C55_mode : forall params inputs out out', mf_forward true params inputs = Ok out -> mf_forward false params inputs = Ok out' ->
  (forall n, In n ["Fx"; "Fy"; "Kxk"; "Gxa"; "Kya"; "Gyk"; "GSum"] -> dget n out = dget n out') /\ forall n, In n ["Mx"; "My"; "Mz"] -> dget n out = Some (Some 0).
Proof.
  intros params inputs out out' H H'. unfold mf_forward, lookup_err in *. destruct (dget "gamma" inputs) as [g|], (dget "vx" inputs) as [v|], (dget "Fz" inputs) as [z|], (dget "kappa" inputs) as [k|], (dget "alpha" inputs) as [a|]; cbn [bind] in *; try discriminate.
  fold (read_names true) in H. fold (read_names false) in H'. destruct (need (read_names true) params) as [[]|]; [|discriminate]. destruct (need (read_names false) params) as [[]|]; [|discriminate]. cbn [bind] in *. cbv zeta in H, H'.
  assert (forall A (x y : A), Ok x = Ok y -> x = y) as OI by (intros A x y E; congruence). apply OI in H. apply OI in H'. clear OI. subst out out'. unfold do_force_and_moments. destruct (calculate_basic (prm params) a v g z) as [b|].
  - destruct (calculate_Fx0 (prm params) b k g z) as [[Fx0 mux] K]. destruct (calculate_Fx (prm params) b k Fx0) as [fx ga]. set (l := calculate_Fy0 (prm params) b z). destruct (calculate_Fy (prm params) b z k (Fy0 l) (muy l)) as [[fy gy] sv]. cbn [r_Fx r_Fy r_Mx r_My r_Mz r_Kxk r_Gxa r_Kya r_Gyk].
    split; intros n Hn; cbn [In] in Hn; repeat (destruct Hn as [<-|Hn]; [reflexivity|]); contradiction.
  - cbn [r_Fx r_Fy r_Mx r_My r_Mz r_Kxk r_Gxa r_Kya r_Gyk]. split; intros n Hn; cbn [In] in Hn; repeat (destruct Hn as [<-|Hn]; [reflexivity|]); contradiction.
Qed.
Print Assumptions C55_mode.
