(** C34: the model algebra constraint and its declared sparsity. *)
From Coq Require FinFun.
From Verif Require Import Base RBase TreeModel UtilsModel UtilsProofs UtilsProofs2 IoModel IoProofs IoProps OcpProofs2 AlgModel AlgSpec AlgProofs.

Ltac fg := unfold flat_groups; simpl; auto 6.
(** ** the residual *)
(** every component, by name: (f - states_dot, g - con_outputs, residuals), where f and g are the model's values at the states and inputs held by the vector *)
Theorem C34_residual : forall nm forward mesh x, names_ok nm -> forward_ok nm forward mesh -> List.length x = num_implicit_var nm ->
  exists ds di sd out res, group_dict nm x "states" ds /\ group_dict nm x "inputs" di /\ forward ds di mesh = Ok (sd, out) /\
    flat_implicit nm forward x mesh = Ok res /\ List.length res = num_implicit_res nm /\
    (forall i n, nth_error (nm "states") i = Some n -> exists f v, dget n sd = Some f /\ value_of nm x "states_dot" n v /\ nth_error res i = Some (f - v)) /\
    (forall i n, nth_error (nm "con_outputs") i = Some n -> exists f v, dget n out = Some f /\ value_of nm x "con_outputs" n v /\ nth_error res (List.length (nm "states") + i) = Some (f - v)) /\
    (forall i n, nth_error (nm "residuals") i = Some n -> exists f, dget n out = Some f /\ nth_error res (List.length (nm "states") + List.length (nm "con_outputs") + i) = Some f).
Proof.
  intros nm forward mesh x HN HF L.
  assert (In "states" flat_groups) as G1 by fg. assert (In "inputs" flat_groups) as G2 by fg. assert (In "states_dot" flat_groups) as G3 by fg. assert (In "con_outputs" flat_groups) as G4 by fg.
  assert (forall g, In g flat_groups -> List.length (part nm g x) = List.length (nm g)) as LP by (intros; now apply part_len).
  destruct (fwa_ok nm forward mesh HN HF (part nm "states" x) (part nm "inputs" x) (LP _ G1) (LP _ G2)) as (sd & out & v1 & v2 & v3 & v4 & E & EA & L1 & L3 & L4 & P1 & P3 & P4 & K1 & K2).
  exists (combine (nm "states") (part nm "states" x)), (combine (nm "inputs") (part nm "inputs" x)), sd, out, (vsub v1 (part nm "states_dot" x) ++ vsub v3 (part nm "con_outputs" x) ++ v4).
  pose proof (LP _ G3) as LP3. pose proof (LP _ G4) as LP4. pose proof (len_sd nm HN) as LS.
  assert (List.length (vsub v1 (part nm "states_dot" x)) = List.length (nm "states")) as LV1 by (unfold vsub; rewrite map2_length; congruence).
  assert (List.length (vsub v3 (part nm "con_outputs" x)) = List.length (nm "con_outputs")) as LV3 by (unfold vsub; rewrite map2_length; congruence).
  assert (forall names (d : dict R) v i n, incl names (keys d) -> (forall i n, nth_error names i = Some n -> nth_error v i = dget n d) -> nth_error names i = Some n -> exists f, dget n d = Some f /\ nth_error v i = Some f) as Q.
  { intros names d v i n I H Hn. rewrite (H i n Hn). apply nth_error_In, I, dget_some_iff in Hn. destruct Hn as [f ->]. eauto. }
  assert (forall (a b : list R) i f v, nth_error a i = Some f -> nth_error b i = Some v -> nth_error (vsub a b) i = Some (f - v)) as MV.
  { clear. unfold vsub. induction a as [|u a IH]; intros [|w b] [|i] f v; simpl; try discriminate; [intros [= <-] [= <-]; reflexivity|]. apply IH. }
  destruct HN as (Esd & ND & I1 & I2). assert (names_ok nm) as HN by (repeat split; assumption).
  split; [now apply part_dict|]. split; [now apply part_dict|]. split; [assumption|]. split; [|split; [|split; [|split]]].
  - rewrite (flat_implicit_core nm forward mesh HN HF x L). unfold core. now rewrite EA.
  - rewrite !app_length, LV1, LV3, L4. unfold num_implicit_res. lia.
  - intros i n Hn. assert (i < List.length (nm "states"))%nat as Hi by (apply nth_error_Some; congruence). destruct (Q _ _ _ i n K1 P1 Hn) as (f & Ef & Hf). destruct (nth_error (part nm "states_dot" x) i) as [v|] eqn:Ev; [|apply nth_error_None in Ev; lia].
    exists f, v. split; [assumption|]. split; [apply part_value; [assumption|assumption|assumption|]; exists i; rewrite Esd; auto|]. rewrite nth_error_app1 by lia. now apply MV.
  - intros i n Hn. assert (i < List.length (nm "con_outputs"))%nat as Hi by (apply nth_error_Some; congruence). destruct (Q _ _ _ i n (incl_tran I1 K2) P3 Hn) as (f & Ef & Hf). destruct (nth_error (part nm "con_outputs" x) i) as [v|] eqn:Ev; [|apply nth_error_None in Ev; lia].
    exists f, v. split; [assumption|]. split; [apply part_value; [assumption|assumption|assumption|]; exists i; auto|]. rewrite nth_error_app2 by lia. rewrite nth_error_app1 by lia. rewrite LV1. replace (_ + i - _)%nat with i by lia. now apply MV.
  - intros i n Hn. destruct (Q _ _ _ i n (incl_tran I2 K2) P4 Hn) as (f & Ef & Hf). exists f. split; [assumption|]. rewrite !nth_error_app2 by lia. rewrite LV1, LV3. replace (_ + i - _ - _)%nat with i by lia. assumption.
Qed.
Print Assumptions C34_residual.

(** it vanishes exactly when the vector's states_dot and con_outputs are the model's and the model's residuals are zero *)
Theorem C34_residual_zero : forall nm forward mesh x, names_ok nm -> forward_ok nm forward mesh -> List.length x = num_implicit_var nm ->
  exists ds di sd out res, group_dict nm x "states" ds /\ group_dict nm x "inputs" di /\ forward ds di mesh = Ok (sd, out) /\ flat_implicit nm forward x mesh = Ok res /\
    (Forall (fun r => r = 0) res <->
      (forall n v, value_of nm x "states_dot" n v -> dget n sd = Some v) /\ (forall n v, value_of nm x "con_outputs" n v -> dget n out = Some v) /\ (forall n, In n (nm "residuals") -> dget n out = Some 0)).
Proof.
  intros nm forward mesh x HN HF L. destruct (C34_residual nm forward mesh x HN HF L) as (ds & di & sd & out & res & A & B & C & D & LR & P1 & P2 & P3). exists ds, di, sd, out, res. repeat (split; [assumption|]).
  assert (forall n v w g, In g flat_groups -> value_of nm x g n v -> value_of nm x g n w -> v = w) as VU by (intros n v w g Hg (j & E1 & H1) (j' & E2 & H2); congruence).
  assert (forall g n v, In g flat_groups -> value_of nm x g n v -> exists i, nth_error (nm g) i = Some n) as VI by (intros g n v Hg H; apply part_value in H; [destruct H as (i & H & _); eauto|assumption|assumption|assumption]).
  assert (nm "states_dot" = nm "states") as Esd by (destruct HN; assumption).
  split.
  - intro Z. assert (forall i v, nth_error res i = Some v -> v = 0) as Z' by (intros i v E; rewrite Forall_forall in Z; apply Z; eapply nth_error_In; eauto). split; [|split].
    + intros n v Hv. destruct (VI "states_dot" n v ltac:(fg) Hv) as [i Hi]. rewrite Esd in Hi. destruct (P1 i n Hi) as (f & w & Ef & Hw & Er). apply Z' in Er. rewrite Ef. f_equal. rewrite (VU n v w "states_dot" ltac:(fg) Hv Hw). lra.
    + intros n v Hv. destruct (VI "con_outputs" n v ltac:(fg) Hv) as [i Hi]. destruct (P2 i n Hi) as (f & w & Ef & Hw & Er). apply Z' in Er. rewrite Ef. f_equal. rewrite (VU n v w "con_outputs" ltac:(fg) Hv Hw). lra.
    + intros n Hn. destruct (In_nth_error _ _ Hn) as [i Hi]. destruct (P3 i n Hi) as (f & Ef & Er). apply Z' in Er. congruence.
  - intros (Z1 & Z2 & Z3). apply Forall_forall. intros v Hv. destruct (In_nth_error _ _ Hv) as [r Er]. assert (r < num_implicit_res nm)%nat as Hr by (rewrite <- LR; apply nth_error_Some; congruence). unfold num_implicit_res in Hr.
    destruct (Nat.lt_ge_cases r (List.length (nm "states"))) as [H1|H1].
    + destruct (nth_error (nm "states") r) as [n|] eqn:En; [|apply nth_error_None in En; lia]. destruct (P1 r n En) as (f & w & Ef & Hw & E). rewrite (Z1 n w Hw) in Ef. injection Ef as ->. rewrite E in Er. injection Er as <-. lra.
    + destruct (Nat.lt_ge_cases (r - List.length (nm "states")) (List.length (nm "con_outputs"))) as [H2|H2].
      * destruct (nth_error (nm "con_outputs") (r - List.length (nm "states"))) as [n|] eqn:En; [|apply nth_error_None in En; lia]. destruct (P2 _ n En) as (f & w & Ef & Hw & E). rewrite (Z2 n w Hw) in Ef. injection Ef as ->. replace (_ + (r - _))%nat with r in E by lia. rewrite E in Er. injection Er as <-. lra.
      * destruct (nth_error (nm "residuals") (r - List.length (nm "states") - List.length (nm "con_outputs"))) as [n|] eqn:En; [|apply nth_error_None in En; lia]. destruct (P3 _ n En) as (f & Ef & E). rewrite (Z3 n (nth_error_In _ _ En)) in Ef. injection Ef as <-. replace (_ + _ + (r - _ - _))%nat with r in E by lia. rewrite E in Er. injection Er as <-. lra.
Qed.
Print Assumptions C34_residual_zero.

(** ** the declared jacobian structure *)
Local Open Scope nat_scope.
Lemma combine_app' : forall A B (a a' : list A) (b b' : list B), List.length a = List.length b -> combine (a ++ a') (b ++ b') = combine a b ++ combine a' b'.
Proof. induction a as [|x a IH]; intros a' [|y b] b' L; simpl in *; try discriminate; [reflexivity|]. f_equal. apply IH. lia. Qed.
Lemma combine_prod : forall (rs l : list nat) k, List.length l = k -> combine (concat (map (fun r => repeat r k) rs)) (concat (repeat l (List.length rs))) = list_prod rs l.
Proof.
  intros rs l k L. induction rs as [|r rs IH]; [reflexivity|]. cbn [map concat List.length repeat list_prod]. rewrite <- IH. rewrite combine_app' by (now rewrite repeat_length). f_equal. clear IH. revert k L. induction l as [|a l IHl]; intros k L; simpl in L; subst k; [reflexivity|]. simpl. f_equal. now apply IHl.
Qed.

Lemma NoDup_prod : forall A B (l : list A) (m : list B), NoDup l -> NoDup m -> NoDup (list_prod l m).
Proof.
  intros A B l m Nl Nm. induction l as [|a l IH]; [constructor|]. apply NoDup_cons_iff in Nl. destruct Nl as [Ha Nl]. cbn [list_prod]. apply NoDup_app_intro; [|auto|].
  - apply FinFun.Injective_map_NoDup; [|assumption]. intros u v [= E]. assumption.
  - intros [u v] H1 H2. apply in_map_iff in H1. destruct H1 as (w & [= <- <-] & _). apply in_prod_iff in H2. tauto.
Qed.
Lemma in_combine_seq : forall a b n r j, In (r, j) (combine (seq a n) (seq b n)) <-> exists i, i < n /\ r = a + i /\ j = b + i.
Proof.
  intros a b n; revert a b. induction n as [|n IH]; intros a b r j; simpl; [split; [tauto|intros (i & H & _); lia]|]. rewrite IH. split.
  - intros [[= <- <-]|(i & H & -> & ->)]; [exists 0; lia|exists (S i); lia].
  - intros ([|i] & H & -> & ->); [left; f_equal; lia|right; exists i; lia].
Qed.
Lemma NoDup_combine_l : forall A B (l : list A) (m : list B), NoDup l -> NoDup (combine l m).
Proof. induction l as [|a l IH]; intros [|b m] ND; try constructor; apply NoDup_cons_iff in ND; destruct ND as [Ha ND]; [|now apply IH]. intro H. apply in_combine_l in H. auto. Qed.

(** [jac_entry nm r j]: row [r] may depend on column [j]: every row on states and inputs, the row of a state on its states_dot, the row of a con_output on its variable *)
Definition jac_entry (nm : string -> list string) (r j : nat) : Prop := r < num_implicit_res nm /\
  (belongs nm "states" j \/ belongs nm "inputs" j \/
   (exists n, nth_error (nm "states") r = Some n /\ get_var_index_in_flat nm "states_dot" n = Ok j) \/
   (exists i n, r = List.length (nm "states") + i /\ nth_error (nm "con_outputs") i = Some n /\ get_var_index_in_flat nm "con_outputs" n = Ok j)).

Section J.
Variable nm : string -> list string.
Hypothesis HN : names_ok nm.
Let ns := List.length (nm "states").
Let ni := List.length (nm "inputs").
Let nc := List.length (nm "con_outputs").
Lemma jac_entry_iff : forall r j, jac_entry nm r j <-> r < num_implicit_res nm /\ (j < ns + ni \/ (r < ns + nc /\ j = ns + ni + r)).
Proof using HN.
  intros r j. unfold jac_entry. rewrite !belongs_iff by (try assumption; fg). pose proof (len_sd nm HN) as LS. unfold off. cbn [String.eqb Ascii.eqb Bool.eqb]. fold ns ni nc. destruct HN as (Esd & _). split; intros [Hr H]; (split; [assumption|]).
  - destruct H as [H|[H|[(n & Hn & E)|(i & n & -> & Hn & E)]]]; [left; lia|left; lia| |].
    + right. assert (r < ns) by (apply nth_error_Some; congruence). split; [lia|]. rewrite <- Esd in Hn. rewrite (var_index nm HN "states_dot" n r ltac:(fg) Hn) in E. injection E as <-. unfold off. simpl. fold ns ni. lia.
    + right. assert (i < nc) by (apply nth_error_Some; congruence). split; [lia|]. rewrite (var_index nm HN "con_outputs" n i ltac:(fg) Hn) in E. injection E as <-. unfold off. simpl. fold ns ni. lia.
  - destruct H as [H|[H ->]]; [destruct (Nat.lt_ge_cases j ns); [left; lia|right; left; lia]|right; right].
    destruct (Nat.lt_ge_cases r ns) as [H1|H1].
    + left. destruct (nth_error (nm "states") r) as [n|] eqn:En; [|apply nth_error_None in En; fold ns in En; lia]. exists n. split; [reflexivity|]. rewrite <- Esd in En. rewrite (var_index nm HN "states_dot" n r ltac:(fg) En). unfold off. simpl. fold ns ni. f_equal. lia.
    + right. destruct (nth_error (nm "con_outputs") (r - ns)) as [n|] eqn:En; [|apply nth_error_None in En; fold nc in En; lia]. exists (r - ns), n. split; [lia|]. split; [assumption|]. rewrite (var_index nm HN "con_outputs" n (r - ns) ltac:(fg) En). unfold off. simpl. fold ns ni. f_equal. lia.
Qed.
Lemma jac_shape : (ns + ni = 0 \/ num_implicit_res nm = 0 -> jacobianstructure nm = Raise ValueError) /\
  (0 < ns + ni -> 0 < num_implicit_res nm -> exists rows cols, jacobianstructure nm = Ok (rows, cols) /\ List.length rows = List.length cols /\
    combine rows cols = list_prod (seq 0 (num_implicit_res nm)) (seq 0 (ns + ni)) ++ combine (seq 0 ns) (seq (ns + ni) ns) ++ combine (seq ns nc) (seq (ns + ni + ns) nc)).
Proof using HN.
  unfold jacobianstructure. rewrite !group_indices by (try assumption; fg). cbn [bind]. rewrite (len_sd nm HN). unfold off. cbn [String.eqb Ascii.eqb Bool.eqb]. fold ns ni nc. split.
  - intros [H|H]; [rewrite H; reflexivity|]. rewrite H. now rewrite Bool.orb_true_r.
  - intros H1 H2. destruct (Nat.eqb_spec (ns + ni) 0); [lia|]. destruct (Nat.eqb_spec (num_implicit_res nm) 0); [lia|]. cbn [orb]. eexists. eexists. split; [reflexivity|].
    assert (List.length (seq 0 ns ++ seq ns ni) = ns + ni) as LL by (rewrite app_length, !seq_length; reflexivity).
    assert (map (Nat.add ns) (seq 0 nc) = seq ns nc) as EM by (rewrite <- seq_shift_n || (rewrite <- (Nat.add_0_r ns) at 2; clear; generalize 0 as a; induction nc as [|m IH]; intro a; simpl; [reflexivity|]; f_equal; rewrite <- Nat.add_succ_r; apply IH)).
    assert (List.length (concat (map (fun r => repeat r (ns + ni)) (seq 0 (num_implicit_res nm)))) = List.length (concat (repeat (seq 0 ns ++ seq ns ni) (num_implicit_res nm)))) as LE.
    { rewrite (length_concat_const _ (ns + ni)) by (apply Forall_forall; intros u Hu; apply in_map_iff in Hu; destruct Hu as (z & <- & _); apply repeat_length). rewrite (length_concat_const _ (ns + ni)) by (apply Forall_forall; intros u Hu; apply repeat_spec in Hu; now subst). rewrite map_length, seq_length, repeat_length. reflexivity. }
    rewrite EM. split; [rewrite !app_length, LE, !seq_length; reflexivity|]. rewrite !combine_app' by (try assumption; now rewrite !seq_length). f_equal.
    rewrite <- (combine_prod _ _ (ns + ni)) by now rewrite seq_length. rewrite seq_length. f_equal. f_equal. f_equal. symmetry. apply (seq_app ns ni 0).
Qed.
End J.

(** what is declared: exactly these entries, none twice; ValueError for a model without states and inputs, or without anything to constrain *)
Theorem C34_jacobian_structure : forall nm, names_ok nm ->
  (List.length (nm "states") + List.length (nm "inputs") = 0 \/ num_implicit_res nm = 0 -> jacobianstructure nm = Raise ValueError) /\
  (0 < List.length (nm "states") + List.length (nm "inputs") -> 0 < num_implicit_res nm -> exists rows cols, jacobianstructure nm = Ok (rows, cols) /\ List.length rows = List.length cols /\
    NoDup (combine rows cols) /\ (forall r j, In (r, j) (combine rows cols) <-> jac_entry nm r j) /\ (forall r j, In (r, j) (combine rows cols) -> r < num_implicit_res nm /\ j < num_implicit_var nm)).
Proof.
  intros nm HN. destruct (jac_shape nm HN) as [J1 J2]. split; [assumption|]. intros H1 H2. destruct (J2 H1 H2) as (rows & cols & E & L & EC). exists rows, cols. split; [assumption|]. split; [assumption|]. rewrite EC.
  assert (forall r j, In (r, j) (list_prod (seq 0 (num_implicit_res nm)) (seq 0 (List.length (nm "states") + List.length (nm "inputs"))) ++ combine (seq 0 (List.length (nm "states"))) (seq (List.length (nm "states") + List.length (nm "inputs")) (List.length (nm "states"))) ++ combine (seq (List.length (nm "states")) (List.length (nm "con_outputs"))) (seq (List.length (nm "states") + List.length (nm "inputs") + List.length (nm "states")) (List.length (nm "con_outputs")))) <-> jac_entry nm r j) as HI.
  { intros r j. rewrite jac_entry_iff by assumption. rewrite !in_app_iff, in_prod_iff, !in_seq, !in_combine_seq. unfold num_implicit_res. split.
    - intros [H|[(i & H & -> & ->)|(i & H & -> & ->)]]; lia.
    - intros [Hr [H|[H ->]]]; [left; lia|right]. destruct (Nat.lt_ge_cases r (List.length (nm "states"))); [left; exists r; lia|right; exists (r - List.length (nm "states")); lia]. }
  split; [|split; [exact HI|]].
  - apply NoDup_app_intro; [apply NoDup_prod; apply seq_NoDup|apply NoDup_app_intro; [apply NoDup_combine_l, seq_NoDup|apply NoDup_combine_l, seq_NoDup|]|].
    + intros [r j] A B. apply in_combine_seq in A. apply in_combine_seq in B. destruct A as (i & ? & ? & ?), B as (i' & ? & ? & ?). lia.
    + intros [r j] A B. rewrite in_prod_iff, !in_seq in A. rewrite in_app_iff, !in_combine_seq in B. destruct B as [(i & ? & ? & ?)|(i & ? & ? & ?)]; lia.
  - intros r j H. apply HI in H. rewrite jac_entry_iff in H by assumption. split; [tauto|]. rewrite (nvar nm HN). lia.
Qed.
Print Assumptions C34_jacobian_structure.

(** it is complete: whatever the model's forward is, the derivative of a residual in a variable that is not declared is 0 everywhere;
    and the entries of states_dot and con_outputs are -1 everywhere (this is what the condensed formulation relies on) *)
Lemma lin_iff : forall nm r, lin nm r = if r <? List.length (nm "states") + List.length (nm "con_outputs") then Some (List.length (nm "states") + List.length (nm "inputs") + r) else None.
Proof. intros nm r. unfold lin. destruct (Nat.ltb_spec r (List.length (nm "states"))), (Nat.ltb_spec r (List.length (nm "states") + List.length (nm "con_outputs"))); try reflexivity; lia. Qed.
Lemma residual_pderiv_lin : forall nm forward mesh x r j, names_ok nm -> forward_ok nm forward mesh -> List.length x = num_implicit_var nm -> r < num_implicit_res nm -> List.length (nm "states") + List.length (nm "inputs") <= j < num_implicit_var nm ->
  pderiv (fun y => vget r (residual nm forward mesh y)) x j (match lin nm r with Some q => if Nat.eqb q j then -1 else 0 | None => 0 end)%R.
Proof.
  intros nm forward mesh x r j HN HF L Hr Hj.
  assert (forall t, part nm "states" (upd j t x) = part nm "states" x) as PS by (intro t; apply part_upd; [assumption|unfold off; simpl; lia]).
  assert (forall t, part nm "inputs" (upd j t x) = part nm "inputs" x) as PI by (intro t; apply part_upd; [assumption|unfold off; simpl; lia]).
  unfold pderiv. apply dlim_ext with (f := (fun t => comp nm forward mesh r (part nm "states" x) (part nm "inputs" x) - match lin nm r with Some q => vget q (upd j t x) | None => 0 end)%R).
  - intro t. rewrite residual_comp by (try assumption; now rewrite upd_length). now rewrite PS, PI.
  - change (pderiv (fun y => comp nm forward mesh r (part nm "states" x) (part nm "inputs" x) - match lin nm r with Some q => vget q y | None => 0 end)%R x j (match lin nm r with Some q => if Nat.eqb q j then -1 else 0 | None => 0 end)%R).
    destruct (lin nm r) as [q|].
    + eapply pderiv_eq; [|apply pderiv_sub; [apply pderiv_const|apply pderiv_coord; lia]]. destruct (Nat.eqb q j); lra.
    + eapply pderiv_eq; [|apply pderiv_sub; apply pderiv_const]. lra.
Qed.
Theorem C34_jacobian_complete : forall nm forward mesh x r j, names_ok nm -> forward_ok nm forward mesh -> List.length x = num_implicit_var nm -> r < num_implicit_res nm -> j < num_implicit_var nm ->
  (~ jac_entry nm r j -> pderiv (fun y => vget r (residual nm forward mesh y)) x j 0%R) /\
  (jac_entry nm r j -> belongs nm "states_dot" j \/ belongs nm "con_outputs" j -> pderiv (fun y => vget r (residual nm forward mesh y)) x j (-1)%R).
Proof.
  intros nm forward mesh x r j HN HF L Hr Hj. rewrite jac_entry_iff, !belongs_iff by (try assumption; fg). unfold off. cbn [String.eqb Ascii.eqb Bool.eqb]. split.
  - intro H. assert (List.length (nm "states") + List.length (nm "inputs") <= j) as Hge by lia. eapply pderiv_eq; [|apply residual_pderiv_lin; try assumption; split; assumption]. rewrite lin_iff. destruct (Nat.ltb_spec r (List.length (nm "states") + List.length (nm "con_outputs"))); [|reflexivity]. destruct (Nat.eqb_spec (List.length (nm "states") + List.length (nm "inputs") + r) j); [lia|reflexivity].
  - intros H HB. assert (List.length (nm "states") + List.length (nm "inputs") <= j) by lia. eapply pderiv_eq; [|apply residual_pderiv_lin; try assumption; split; assumption]. rewrite lin_iff.
    destruct (Nat.ltb_spec r (List.length (nm "states") + List.length (nm "con_outputs"))); [|lia]. destruct (Nat.eqb_spec (List.length (nm "states") + List.length (nm "inputs") + r) j); [reflexivity|lia].
Qed.
Print Assumptions C34_jacobian_complete.

(** ** the declared hessian structure *)
Definition nonlinear (nm : string -> list string) (j : nat) : Prop := belongs nm "states" j \/ belongs nm "inputs" j.
Theorem C34_hessian_structure : forall nm, names_ok nm -> exists rows cols, hessianstructure nm = Ok (rows, cols) /\ List.length rows = List.length cols /\ NoDup (combine rows cols) /\
  forall j k, In (j, k) (combine rows cols) <-> nonlinear nm j /\ nonlinear nm k.
Proof.
  intros nm HN. unfold hessianstructure. rewrite !group_indices by (try assumption; fg). cbn [bind]. eexists. eexists. split; [reflexivity|]. split; [now rewrite !map_length|].
  set (l := filter _ _). assert (combine (map fst l) (map snd l) = l) as -> by (clear; induction l as [|[u v] l IH]; simpl; congruence). unfold l; clear l. split.
  - apply NoDup_filter, NoDup_prod; apply seq_NoDup.
  - intros j k. rewrite filter_In, in_prod_iff, !in_seq, Bool.andb_true_iff, !Bool.negb_true_iff. unfold nonlinear. rewrite !belongs_iff by (try assumption; fg). pose proof (nvar nm HN) as NV. rewrite NV.
    assert (forall i, existsb (Nat.eqb i) (seq (off nm "states_dot") (List.length (nm "states_dot")) ++ seq (off nm "con_outputs") (List.length (nm "con_outputs"))) = false <-> ~ (off nm "states_dot" <= i < off nm "states_dot" + List.length (nm "states_dot")) /\ ~ (off nm "con_outputs" <= i < off nm "con_outputs" + List.length (nm "con_outputs"))) as EB.
    { intro i. split.
      - intro H. assert (~ In i (seq (off nm "states_dot") (List.length (nm "states_dot")) ++ seq (off nm "con_outputs") (List.length (nm "con_outputs")))) as HI.
        { intro HI. assert (existsb (Nat.eqb i) (seq (off nm "states_dot") (List.length (nm "states_dot")) ++ seq (off nm "con_outputs") (List.length (nm "con_outputs"))) = true) by (apply existsb_exists; exists i; split; [assumption|apply Nat.eqb_refl]). congruence. }
        rewrite in_app_iff, !in_seq in HI. lia.
      - intro H. destruct (existsb _ _) eqn:E; [|reflexivity]. apply existsb_exists in E. destruct E as (i' & HI & E). apply Nat.eqb_eq in E. subst i'. rewrite in_app_iff, !in_seq in HI. lia. }
    cbn [fst snd]. rewrite !EB. rewrite (len_sd nm HN). unfold off. cbn [String.eqb Ascii.eqb Bool.eqb]. lia.
Qed.
Print Assumptions C34_hessian_structure.
(** it is complete: for every gradient of a residual, the second derivatives that are not declared are 0 everywhere *)
Theorem C34_hessian_complete : forall nm forward mesh r g x j k, names_ok nm -> forward_ok nm forward mesh -> r < num_implicit_res nm ->
  is_gradient (num_implicit_var nm) (fun y => vget r (residual nm forward mesh y)) g -> List.length x = num_implicit_var nm -> j < num_implicit_var nm -> k < num_implicit_var nm ->
  ~ (nonlinear nm j /\ nonlinear nm k) -> pderiv (fun y => g y j) x k 0%R.
Proof.
  intros nm forward mesh r g x j k HN HF Hr HG L Hj Hk H. unfold nonlinear in H. rewrite !belongs_iff in H by (try assumption; fg). unfold off in H. cbn [String.eqb Ascii.eqb Bool.eqb] in H.
  set (m := List.length (nm "states") + List.length (nm "inputs")) in *.
  destruct (Nat.lt_ge_cases j m) as [H1|H1].
  - assert (m <= k) as H2 by (unfold m in *; lia). assert (j <> k) as Hne by lia.
    assert (forall t, g (upd k t x) j = g x j) as GC.
    { intro t. pose proof (HG (upd k t x) j ltac:(now rewrite upd_length) Hj) as D1. pose proof (HG x j L Hj) as D2. unfold pderiv in D1, D2. rewrite vget_upd_other in D1 by assumption.
      set (c := (match lin nm r with Some q => vget q (upd k t x) - vget q x | None => 0 end)%R).
      assert (forall s, vget r (residual nm forward mesh (upd j s (upd k t x))) = vget r (residual nm forward mesh (upd j s x)) + - (match lin nm r with Some q => vget q (upd k t x) - vget q x | None => 0 end))%R as ES.
      { intro s. rewrite !residual_comp by (try assumption; now rewrite !upd_length).
        assert (forall v g, g = "states" \/ g = "inputs" -> part nm g (upd j s (upd k t v)) = part nm g (upd j s v)) as PP.
        { intros v g0 Hg0. replace (upd j s (upd k t v)) with (upd k t (upd j s v)). - apply part_upd; [assumption|]. destruct Hg0 as [->| ->]; unfold off; simpl; unfold m in *; lia.
          - clear -Hne. revert j k Hne. induction v as [|a v IH]; intros [|j] [|k] Hne; simpl; try reflexivity; [lia|]. f_equal. apply IH. lia. }
        rewrite !PP by auto. pose proof (lin_iff nm r) as LI. destruct (lin nm r) as [q|]; [|lra]. assert (q <> j) as Hq.
        { destruct (r <? _); [|discriminate]. injection LI as ->. unfold m in *. lia. }
        rewrite !(vget_upd_other q j) by assumption. lra. }
      apply (dlim_unique _ _ _ _ D1). apply dlim_ext with (f := (fun s => vget r (residual nm forward mesh (upd j s x)) + - (match lin nm r with Some q => vget q (upd k t x) - vget q x | None => 0 end))%R); [intro s; symmetry; apply ES|].
      replace (g x j) with (g x j + 0)%R by lra. apply (dlim_plus _ (fun _ => - (match lin nm r with Some q => vget q (upd k t x) - vget q x | None => 0 end))%R); [exact D2|apply dlim_const]. }
    unfold pderiv. apply dlim_ext with (f := fun _ => g x j); [intro t; symmetry; apply GC|apply dlim_const].
  - assert (forall y, List.length y = num_implicit_var nm -> g y j = match lin nm r with Some q => if Nat.eqb q j then -1 else 0 | None => 0 end)%R as GC.
    { intros y Ly. eapply pderiv_unique; [apply (HG y j Ly Hj)|]. apply residual_pderiv_lin; try assumption. fold m. lia. }
    unfold pderiv. eapply dlim_ext; [intro t; symmetry; apply GC; now rewrite upd_length|apply dlim_const].
Qed.
Print Assumptions C34_hessian_complete.

(** *** a concrete model: a point mass with drag, one constrained output and a residual *)
Definition ex_nm (g : string) : list string := if String.eqb g "states" then ["x"; "v"] else if String.eqb g "states_dot" then ["x"; "v"] else if String.eqb g "inputs" then ["u"] else
  if String.eqb g "outputs" then ["speed"; "slack"; "other"] else if String.eqb g "con_outputs" then ["speed"] else if String.eqb g "residuals" then ["slack"] else [].
Definition ex_forward (s i : dict R) (mesh : R) : result (dict R * dict R) :=
  bind (lookup_err "v" s) (fun v => bind (lookup_err "u" i) (fun u => Ok ([("v", u - v * v); ("x", v)], [("other", mesh); ("speed", v * v); ("slack", u * v - 1)])%R)).
Example C34_nonvacuous : names_ok ex_nm /\ (forall mesh, forward_ok ex_nm ex_forward mesh) /\ num_implicit_var ex_nm = 6 /\ num_implicit_res ex_nm = 4 /\
  flat_implicit ex_nm ex_forward [1; 2; 3; 4; 5; 6]%R 0%R = Ok [2 - 4; 3 - 2 * 2 - 5; 2 * 2 - 6; 3 * 2 - 1]%R /\
  jacobianstructure ex_nm = Ok ([0;0;0; 1;1;1; 2;2;2; 3;3;3; 0;1; 2], [0;1;2; 0;1;2; 0;1;2; 0;1;2; 3;4; 5]).
Proof.
  split; [|split; [|repeat split; reflexivity]].
  - split; [reflexivity|]. split; [intros g Hg; unfold flat_groups in Hg; simpl in Hg; destruct Hg as [<-|[<-|[<-|[<-|[<-|[]]]]]]; repeat constructor; simpl; intuition discriminate|]. split; intros a Ha; simpl in *; intuition.
  - intros mesh ds di K1 K2. unfold ex_forward, lookup_err. simpl in K1, K2. destruct ds as [|[a1 v1] [|[a2 v2] [|]]]; try discriminate. destruct di as [|[b1 w1] [|]]; try discriminate. injection K1 as -> ->. injection K2 as ->. cbn. eexists. eexists. split; [reflexivity|]. split; intros a Ha; simpl in *; intuition.
Qed.
