(** C63: the scaling around the solver in double precision; witnesses. *)
From Verif Require Import Base RBase CollocModel CollocProofs MeshModel MeshProofs FloatModel FloatSpec FloatProofs FloatProofs2 FloatProofs3 FloatProofs4 FloatProofs5 FloatProps.
From Flocq Require Import Core.
From Coq Require Import Lra Lia.
Open Scope R_scope.
Local Existing Instance prec53.
Local Existing Instance dexp_valid.
Local Existing Instance dexp_mono.
Local Existing Instance dexp_ne.

(** Specification: x satisfies a lower, an upper bound; two bounds in order. *)
Definition above (b : fbound) (x : R) : Prop := match b with FNegInf => True | FFin l => l <= x | FInf => False end.
Definition below (b : fbound) (x : R) : Prop := match b with FInf => True | FFin l => x <= l | FNegInf => False end.
(** some number lies between the two bounds *)
Definition ordered (b c : fbound) : Prop := exists x, above b x /\ below c x.

(** how far the value v of a variable with scale s can move when it is scaled and unscaled *)
Definition slack (v s : R) : R := 3 * uro * Rabs v + 2 * (s + 1) * pow2 (-1075).

(** What the solver is given: each finite bound and each entry of the guess divided by its scale and
    rounded, each infinite bound unchanged. So bounds in order stay in order, equal bounds stay equal (a
    fixed variable stays fixed), and a guess inside its bounds stays inside them. What it returns is
    multiplied by the scales. *)
Theorem C63_given_to_solver : forall lb ub scales guess,
  List.length scales = List.length lb -> List.length ub = List.length lb -> List.length guess = List.length lb ->
  (forall i, (i < List.length lb)%nat -> 0 < nth i scales 0) ->
  exists slb sub sguess,
  (forall solver, List.length (solver slb sub sguess) = List.length lb ->
     List.length (fl_solve solver lb ub scales guess) = List.length lb /\
     forall i, (i < List.length lb)%nat ->
       nearest (nth i (solver slb sub sguess) 0 * nth i scales 0) (nth i (fl_solve solver lb ub scales guess) 0)) /\
  List.length slb = List.length lb /\ List.length sub = List.length lb /\ List.length sguess = List.length lb /\
  forall i, (i < List.length lb)%nat ->
    let l := nth i lb (FFin 0) in let u := nth i ub (FFin 0) in let g := nth i guess 0 in let s := nth i scales 0 in
    let sl := nth i slb (FFin 0) in let su := nth i sub (FFin 0) in let sg := nth i sguess 0 in
    (forall v, l = FFin v -> exists w, sl = FFin w /\ nearest (v / s) w) /\
    (forall v, u = FFin v -> exists w, su = FFin w /\ nearest (v / s) w) /\
    nearest (g / s) sg /\
    (l = FNegInf -> sl = FNegInf) /\ (l = FInf -> sl = FInf) /\ (u = FInf -> su = FInf) /\ (u = FNegInf -> su = FNegInf) /\
    (ordered l u -> ordered sl su) /\ (l = u -> sl = su) /\
    (above l g -> above sl sg) /\ (below u g -> below su sg).
Proof.
  intros lb ub scales guess Ls Lu Lg Sp.
  exists (map2 fb_div lb scales), (map2 fb_div ub scales), (map2 fdiv guess scales).
  split.
  { intros solver L.
    change (fl_solve solver lb ub scales guess) with (map2 fmul (solver (map2 fb_div lb scales) (map2 fb_div ub scales) (map2 fdiv guess scales)) scales).
    split; [rewrite map2_length; congruence|]. intros i Hi.
    rewrite (map2_nth _ _ _ fmul _ _ i 0 0) by congruence. apply fl_nearest. }
  split; [apply map2_length; congruence|]. split; [rewrite map2_length; congruence|]. split; [rewrite map2_length; congruence|].
  intros i Hi l u g s sl su sg. specialize (Sp i Hi). fold s in Sp.
  assert (EL : sl = fb_div l s) by (apply map2_nth; [congruence|exact Hi]).
  assert (EU : su = fb_div u s) by (apply map2_nth; [congruence|rewrite Lu; exact Hi]).
  assert (EG : sg = fdiv g s) by (apply map2_nth; [congruence|rewrite Lg; exact Hi]).
  rewrite EL, EU, EG. clearbody l u g s sl su sg.
  assert (AB : forall b x, above b x -> above (fb_div b s) (fdiv x s)).
  { intros b x H. destruct b; cbn in *; auto. apply fdiv_mono; assumption. }
  assert (BB : forall b x, below b x -> below (fb_div b s) (fdiv x s)).
  { intros b x H. destruct b; cbn in *; auto. apply fdiv_mono; assumption. }
  split; [intros v ->; eexists; split; [reflexivity|apply fl_nearest]|].
  split; [intros v ->; eexists; split; [reflexivity|apply fl_nearest]|].
  split; [apply fl_nearest|]. split; [intros ->; reflexivity|]. split; [intros ->; reflexivity|].
  split; [intros ->; reflexivity|]. split; [intros ->; reflexivity|].
  split; [intros [x [A B]]; exists (fdiv x s); auto|]. split; [intros ->; reflexivity|].
  split; [apply AB|apply BB].
Qed.
Print Assumptions C63_given_to_solver.

(** a solver that returns doubles inside the bounds it is given, whenever there are such points *)
Definition stays_inside (solver : list fbound -> list fbound -> list R -> list R) : Prop :=
  forall l u g, List.length u = List.length l -> List.length g = List.length l ->
    (forall i, (i < List.length l)%nat -> ordered (nth i l (FFin 0)) (nth i u (FFin 0))) ->
    List.length (solver l u g) = List.length l /\
    forall i, (i < List.length l)%nat -> above (nth i l (FFin 0)) (nth i (solver l u g) 0) /\ below (nth i u (FFin 0)) (nth i (solver l u g) 0).

(** What the user gets back: if the solver stays inside the bounds it is given, each entry of the
    returned solution is inside the user's bounds up to [slack] (3 roundoffs, relative); it is exactly
    inside a bound that is 0, and exactly inside when the scale is a power of two and the scaled bound
    is not subnormal. So a variable with such a scale fixed to a value is returned at exactly that value. *)
Theorem C63_solution : forall solver lb ub scales guess,
  List.length scales = List.length lb -> List.length ub = List.length lb -> List.length guess = List.length lb ->
  (forall i, (i < List.length lb)%nat -> 0 < nth i scales 0) ->
  (forall i, (i < List.length lb)%nat -> ordered (nth i lb (FFin 0)) (nth i ub (FFin 0))) ->
  stays_inside solver ->
  let sol := fl_solve solver lb ub scales guess in
  List.length sol = List.length lb /\ doubles sol /\
  forall i, (i < List.length lb)%nat ->
    let x := nth i sol 0 in let s := nth i scales 0 in
    (forall v, nth i lb (FFin 0) = FFin v ->
       v - slack v s <= x /\ (v = 0 -> 0 <= x) /\
       (forall k, s = pow2 k -> double v -> pow2 (-1022) <= Rabs (v / s) -> v <= x)) /\
    (forall v, nth i ub (FFin 0) = FFin v ->
       x <= v + slack v s /\ (v = 0 -> x <= 0) /\
       (forall k, s = pow2 k -> double v -> pow2 (-1022) <= Rabs (v / s) -> x <= v)).
Proof.
  intros solver lb ub scales guess Ls Lu Lg Sp Or St sol.
  assert (exists slb, slb = map2 fb_div lb scales) as [slb Esl] by eauto.
  assert (exists sub, sub = map2 fb_div ub scales) as [sub Esu] by eauto.
  assert (exists sguess, sguess = map2 fdiv guess scales) as [sguess Esg] by eauto.
  assert (ES : sol = map2 fmul (solver slb sub sguess) scales) by (rewrite Esl, Esu, Esg; reflexivity).
  assert (L1 : List.length slb = List.length lb) by (rewrite Esl; apply map2_length; congruence).
  assert (L2 : List.length sub = List.length lb) by (rewrite Esu, map2_length; congruence).
  assert (L3 : List.length sguess = List.length lb) by (rewrite Esg, map2_length; congruence).
  assert (EL : forall i, (i < List.length lb)%nat -> nth i slb (FFin 0) = fb_div (nth i lb (FFin 0)) (nth i scales 0)).
  { intros i Hi. rewrite Esl. apply map2_nth; [congruence|exact Hi]. }
  assert (EU : forall i, (i < List.length lb)%nat -> nth i sub (FFin 0) = fb_div (nth i ub (FFin 0)) (nth i scales 0)).
  { intros i Hi. rewrite Esu. apply map2_nth; [congruence|rewrite Lu; exact Hi]. }
  destruct (St slb sub sguess) as [Ly In]; [congruence|congruence| |].
  { intros i Hi. rewrite L1 in Hi. rewrite EL, EU by exact Hi. destruct (Or i Hi) as [x [A B]]. specialize (Sp i Hi).
    exists (fdiv x (nth i scales 0)). split.
    - destruct (nth i lb (FFin 0)); cbn in *; auto. apply fdiv_mono; assumption.
    - destruct (nth i ub (FFin 0)); cbn in *; auto. apply fdiv_mono; assumption. }
  rewrite L1 in Ly, In.
  split; [rewrite ES, map2_length; congruence|]. split.
  { intros x Hx. rewrite ES in Hx. apply (In_nth _ _ 0) in Hx. destruct Hx as [k [Hk <-]].
    rewrite map2_length in Hk by congruence. rewrite (map2_nth _ _ _ fmul _ _ k 0 0) by (congruence || exact Hk). apply fl_double. }
  intros i Hi x s. specialize (Sp i Hi). fold s in Sp.
  assert (X : x = fmul (nth i (solver slb sub sguess) 0) s).
  { unfold x. rewrite ES. apply map2_nth; [congruence|rewrite Ly; exact Hi]. }
  destruct (In i Hi) as [A B]. rewrite EL in A by exact Hi. rewrite EU in B by exact Hi. fold s in A, B.
  clearbody x. subst x. set (z := nth i (solver slb sub sguess) 0) in *. clearbody z.
  assert (P2 : forall v k, s = pow2 k -> double v -> pow2 (-1022) <= Rabs (v / s) -> fmul (fdiv v s) s = v).
  { intros v k Es Dv Hv. rewrite Es in *. apply roundtrip_pow2; [apply double_fmt, Dv|right; exact Hv]. }
  split; intros v E.
  - rewrite E in A. cbn [fb_div above] in A. apply (fmul_mono _ _ s Sp) in A.
    pose proof (roundtrip_err v s Sp) as RE. apply Rabs_def2b in RE. unfold slack.
    split; [lra|]. split.
    + intros ->. rewrite fdiv_0, fmul_0 in A. exact A.
    + intros k Es Dv Hv. rewrite (P2 v k Es Dv Hv) in A. exact A.
  - rewrite E in B. cbn [fb_div below] in B. apply (fmul_mono _ _ s Sp) in B.
    pose proof (roundtrip_err v s Sp) as RE. apply Rabs_def2b in RE. unfold slack.
    split; [lra|]. split.
    + intros ->. rewrite fdiv_0, fmul_0 in B. exact B.
    + intros k Es Dv Hv. rewrite (P2 v k Es Dv Hv) in B. exact B.
Qed.
Print Assumptions C63_solution.

(** ** Witnesses *)
Lemma pow2_m55 : pow2 (-55) = / 36028797018963968. Proof. rewrite pow2_bpow. cbn. lra. Qed.
Lemma pow2_m53 : pow2 (-53) = / 9007199254740992. Proof. rewrite pow2_bpow. cbn. lra. Qed.
Definition d02 : R := 7205759403792794 * pow2 (-55).   (* the double 0.2 *)
Definition d09 : R := 8106479329266893 * pow2 (-53).   (* the double 0.9 *)
Definition d09' : R := 8106479329266892 * pow2 (-53).  (* 0.8999999999999999 *)
Lemma d02_is : nearest (2 / 10) d02.
Proof.
  replace d02 with (fl (2 / 10)); [apply fl_nearest|]. unfold d02. rewrite pow2_bpow.
  apply fl_compute; [lia|rewrite Rabs_pos_eq by lra; cbn; lra|cbn; apply Rabs_def1; lra].
Qed.
Lemma d09_is : nearest (9 / 10) d09.
Proof.
  replace d09 with (fl (9 / 10)); [apply fl_nearest|]. unfold d09. rewrite pow2_bpow.
  apply fl_compute; [lia|rewrite Rabs_pos_eq by lra; cbn; lra|cbn; apply Rabs_def1; lra].
Qed.
Lemma d_fmt : double 0 /\ double d02 /\ double d09 /\ double 1.
Proof.
  split; [apply double_fmt, generic_format_0|]. split; [apply d02_is|]. split; [apply d09_is|]. apply double_fmt, fmt_1.
Qed.
Lemma gap_sub : fsub d09 d02 = 6305039478318694 * pow2 (-53).
Proof.
  unfold fsub. rewrite (fl_tie _ 6305039478318694 (-53)); [rewrite pow2_bpow; reflexivity|lia|lia|].
  unfold d09, d02. rewrite !pow2_bpow. cbn. lra.
Qed.
Lemma gap_end : fadd d02 (fsub d09 d02) = d09'.
Proof.
  rewrite gap_sub. unfold fadd. rewrite (fl_tie _ 8106479329266892 (-53)); [unfold d09'; rewrite pow2_bpow; reflexivity|lia|lia|].
  unfold d02. rewrite !pow2_bpow. cbn. lra.
Qed.

(** Finding: with user-given points the LGR mesh need not contain them and consecutive intervals need
    not join: for the points 0, 0.2, 0.9, 1 and the two-stage LGR points 0, 1, the second interval ends
    at 0.8999999999999999, the third starts at 0.9, and the flat mesh contains only the former. *)
Theorem C63_user_gap_refuted : exists p mesh fm,
  p = [0; d02; d09; 1] /\ nearest (2 / 10) d02 /\ nearest (9 / 10) d09 /\
  fl_make_mesh 3 [0; 1] (Some p) = Ok mesh /\ flat_mesh mesh = Ok fm /\
  nth 1 (nth 1 mesh []) 0 < nth 0 (nth 2 mesh []) 0 /\ ~ In d09 fm.
Proof.
  destruct d_fmt as [F0 [F2 [F9 F1]]].
  assert (D : doubles [0; d02; d09; 1]).
  { intros x [<- | [<- | [<- | [<- | []]]]]; assumption. }
  assert (V2 : 2 / 10 < d02 < 21 / 100) by (unfold d02; rewrite pow2_m55; lra).
  assert (V9 : 89 / 100 < d09' < d09) by (unfold d09, d09'; rewrite pow2_m53; lra).
  assert (V9u : d09 < 91 / 100) by (unfold d09; rewrite pow2_m53; lra).
  pose proof micro_small as MS.
  assert (C : fl_check 3 [0; d02; d09; 1] = Ok tt).
  { apply fl_check_ok; [exact D|]. split; [reflexivity|]. cbn [nth].
    split; [rewrite Rabs_R0; lra|]. split; [rewrite Rminus_eq_0, Rabs_R0; lra|].
    apply increasing_step. cbn [List.length]. intros [|[|[|i]]] Hi; cbn [nth]; lra || lia. }
  assert (F9' : fmt d09') by (rewrite <- gap_end; apply fl_fmt).
  apply double_fmt in F0, F2, F9, F1.
  exists [0; d02; d09; 1], [[0; d02]; [d02; d09']; [d09; 1]], [0; d02; d09'; 1].
  split; [reflexivity|]. split; [apply d02_is|]. split; [apply d09_is|]. split.
  - unfold fl_make_mesh. rewrite C. cbn [bind seq map]. rewrite !mesh_row by discriminate. cbn [map nth Nat.add].
    rewrite !row_0 by assumption. rewrite !row_1, gap_end.
    rewrite (join_half 0 d02), (join_one d09) by (try assumption; try lra; left; reflexivity). reflexivity.
  - split; [reflexivity|]. split; [cbn [nth]; lra|]. intros [E|[E|[E|[E|[]]]]]; lra.
Qed.
Print Assumptions C63_user_gap_refuted.

(** Finding: a variable fixed to 0.9 with the scale 10 comes back as 0.8999999999999999, outside its
    bounds, although the solver returned exactly the fixed value it was given. *)
Theorem C63_fixed_refuted : exists solver,
  (forall l u g, solver l u g = map (fun b => match b with FFin v => v | _ => 0 end) l) /\
  fl_solve solver [FFin d09] [FFin d09] [10] [d09] = [d09'] /\ d09' < d09.
Proof.
  exists (fun l _ _ => map (fun b => match b with FFin v => v | _ => 0 end) l).
  split; [reflexivity|]. split; [|unfold d09, d09'; rewrite pow2_m53; lra].
  unfold fl_solve, fl_scaled_bounds. cbn [map2 map fb_div]. f_equal.
  assert (E : fdiv d09 10 = 6485183463413514 * pow2 (-56)).
  { unfold fdiv. rewrite pow2_bpow. unfold d09. rewrite pow2_m53.
    apply fl_compute; [lia|rewrite Rabs_pos_eq by lra; cbn; lra|cbn; apply Rabs_def1; lra]. }
  rewrite E. unfold fmul. rewrite (fl_tie _ 8106479329266892 (-53)); [unfold d09'; rewrite pow2_bpow; reflexivity|lia|lia|].
  rewrite !pow2_bpow. cbn. lra.
Qed.
Print Assumptions C63_fixed_refuted.

(** Finding: a strictly increasing mesh need not stay so when it is scaled: of the accepted points
    0, 1 - 2^-52, 1 - 2^-53, 1 the middle two have the same place for the scale 1.25. *)
Theorem C63_collapse_refuted : exists p mesh sm,
  p = [0; 1 - pow2 (-52); 1 - pow2 (-53); 1] /\ fl_make_mesh 3 [] (Some p) = Ok mesh /\
  fl_mesh_from_scale mesh (5 / 4) = Ok sm /\ nth 1 sm 0 = nth 2 sm 0.
Proof.
  assert (P52 : pow2 (-52) = / 4503599627370496) by (rewrite pow2_bpow; cbn; lra).
  assert (D : doubles [0; 1 - pow2 (-52); 1 - pow2 (-53); 1]).
  { intros x [<- | [<- | [<- | [<- | []]]]].
    - apply d_fmt.
    - exists 4503599627370495%Z, (-52)%Z. rewrite P52. split; [lra|split; lia].
    - exists 9007199254740991%Z, (-53)%Z. rewrite pow2_m53. split; [lra|split; lia].
    - apply d_fmt. }
  pose proof micro_small as MS.
  assert (C : fl_check 3 [0; 1 - pow2 (-52); 1 - pow2 (-53); 1] = Ok tt).
  { apply fl_check_ok; [exact D|]. rewrite P52, pow2_m53. split; [reflexivity|]. cbn [nth].
    split; [rewrite Rabs_R0; lra|]. split; [rewrite Rminus_eq_0, Rabs_R0; lra|].
    apply increasing_step. cbn [List.length]. intros [|[|[|i]]] Hi; cbn [nth]; lra || lia. }
  eexists _, _, _. split; [reflexivity|]. split; [unfold fl_make_mesh; rewrite C; cbn [bind]; reflexivity|].
  split; [unfold fl_mesh_from_scale; rewrite flat_two by (lia || reflexivity); reflexivity|].
  cbn [map nth].
  assert (E1 : fmul (1 - pow2 (-52)) (5 / 4) = 5629499534213119 * pow2 (-52)).
  { unfold fmul. rewrite P52. replace (/ 4503599627370496) with (bpow radix2 (-52)) by (cbn; lra).
    apply fl_compute; [lia|rewrite Rabs_pos_eq by (cbn; lra); cbn; lra|cbn; apply Rabs_def1; lra]. }
  assert (E2 : fmul (1 - pow2 (-53)) (5 / 4) = 5629499534213119 * pow2 (-52)).
  { unfold fmul. rewrite pow2_m53, pow2_bpow.
    apply fl_compute; [lia|rewrite Rabs_pos_eq by lra; cbn; lra|cbn; apply Rabs_def1; lra]. }
  rewrite E1, E2. reflexivity.
Qed.
Print Assumptions C63_collapse_refuted.

(** The hypotheses are met: 3 intervals, LGR points 0, 1/2, 1; the points 0, 0.2, 0.9, 1; a bounded
    variable with the scale 8 and a solver that returns the lower bound. *)
Example C63_nonvacuous :
  (1 <= 3)%nat /\ INR 3 <= 2 ^ 50 /\ doubles [0; / 2; 1] /\ nondecreasing [0; / 2; 1] /\
  (forall j, (S j < 3)%nat -> 16 * uro * INR 3 <= nth (S j) [0; / 2; 1] 0 - nth j [0; / 2; 1] 0) /\
  doubles [0; d02; d09; 1] /\ (exists mesh, fl_make_mesh 3 [] (Some [0; d02; d09; 1]) = Ok mesh) /\
  8 = pow2 3 /\ pow2 (-1022) <= Rabs (d09 / 8) /\
  ordered (FFin d09) FInf /\ (exists solver, stays_inside solver).
Proof.
  destruct d_fmt as [F0 [F2 [F9 F1]]].
  assert (D : doubles [0; d02; d09; 1]).
  { intros x [<- | [<- | [<- | [<- | []]]]]; assumption. }
  assert (V2 : 2 / 10 < d02 < 21 / 100) by (unfold d02; rewrite pow2_m55; lra).
  assert (V9 : 89 / 100 < d09 < 91 / 100) by (unfold d09; rewrite pow2_m53; lra).
  pose proof micro_small as MS.
  split; [lia|]. split; [simpl; lra|]. split.
  { intros x [<- | [<- | [<- | []]]]; try assumption. apply double_fmt, fmt_half. }
  split; [apply nondecreasing_step; cbn [List.length]; intros [|[|i]] Hi; cbn [nth]; lra || lia|].
  split; [intros [|[|j]] Hj; try lia; cbn [nth]; unfold uro; simpl; lra|].
  split; [exact D|]. split.
  { apply (proj1 (C63_check 3 [] _ D)). split; [reflexivity|]. cbn [nth].
    split; [rewrite Rabs_R0; lra|]. split; [rewrite Rminus_eq_0, Rabs_R0; lra|].
    apply increasing_step. cbn [List.length]. intros [|[|[|i]]] Hi; cbn [nth]; lra || lia. }
  split; [rewrite pow2_bpow; cbn; lra|]. split.
  { rewrite Rabs_pos_eq by lra. rewrite pow2_bpow. eapply Rle_trans; [apply bpow_big|]. rewrite bpow_100. lra. }
  split; [exists d09; split; [apply Rle_refl|exact I]|].
  exists (fun l u _ => map2 (fun b c => match b, c with FFin v, _ => v | _, FFin v => v | _, _ => 0 end) l u).
  intros l u g Lu Lg Or. split; [apply map2_length; congruence|]. intros i Hi.
  rewrite (map2_nth _ _ _ _ _ _ i (FFin 0) (FFin 0)) by congruence.
  destruct (Or i Hi) as [x [A B]].
  destruct (nth i l (FFin 0)), (nth i u (FFin 0)); cbn in *; try tauto; split; auto; lra.
Qed.
