(** C69: scale arrays and constraint objects are shared by reference, not copied. *)
From Verif Require Import Base RBase NlpModel NlpProofs AliasModel AliasSpec AliasProofs AliasProofs2 AliasProofs3 AliasProofs4 AliasProofs5 AliasProofs6.
From Coq Require Import Lra Lia.
Open Scope R_scope.

(** Programs that give an object to one problem only and leave arrays alone once they were handed over: every problem behaves, call for call and including the exceptions, as if it
    had copies of its own. *)
Theorem C69_as_if_copied : forall cs, careful [] [] [] cs -> fmap problems (hrun cs) = fmap v_prob (vrun cs).
Proof. exact alias_free. Qed.
Print Assumptions C69_as_if_copied.

(** In such a program a call on one problem, or on none, leaves the others as they were. *)
Theorem C69_others_untouched : forall cs c w w' k, careful [] [] [] (cs ++ [c]) -> hrun cs = Ok w -> hcall w c = Ok w' -> touches c <> Some k -> (k < length (problems w))%nat ->
  nth_error (problems w') k = nth_error (problems w) k.
Proof.
  intros cs c w w' k Hc Hr Hs Ht Hk.
  assert (Hfold : forall X (f : X -> call -> result X) l a x, foldM f (l ++ [a]) x = bind (foldM f l x) (fun y => f y a)).
  { intros X f l; induction l as [|b r IH]; intros a x; cbn; [now destruct (f x a)|]. destruct (f x b); [apply IH|reflexivity]. }
  assert (Hcar : forall l A B S, careful A B S (l ++ [c]) -> careful A B S l).
  { intros l; induction l as [|b r IH]; intros A B S H; cbn [app careful] in *; [trivial|]. destruct b; try (eapply IH; eassumption); (destruct H; split; [assumption|eapply IH; eassumption]). }
  pose proof (alias_free cs (Hcar _ _ _ _ Hc)) as E1. pose proof (alias_free _ Hc) as E2. unfold hrun in E2, Hr. rewrite Hfold, Hr in E2. cbn [bind] in E2. rewrite Hs in E2.
  unfold hrun in E1. rewrite Hr in E1. unfold vrun in E1, E2. rewrite Hfold in E2. destruct (foldM vcall cs _) as [v|]; [|discriminate]. cbn [bind fmap] in E1, E2.
  injection E1 as E1. destruct (vcall v c) as [v'|] eqn:E3; [|discriminate]. cbn [fmap] in E2. injection E2 as E2. rewrite E1, E2. rewrite E1 in Hk.
  eapply vcall_frame; eassumption.
Qed.
Print Assumptions C69_others_untouched.

(** Unless the scales are reset, the pieces of every problem always work in the variables of that problem, and their derivatives are divided by the scales that the values are divided by. *)
Theorem C69_scales_in_step : forall cs w, careful [] [] [] cs -> no_reset cs -> hrun cs = Ok w -> Forall in_sync (problems w).
Proof.
  intros cs w Hc Hn Hr. pose proof (alias_free cs Hc) as E. rewrite Hr in E. unfold vrun in E. destruct (foldM vcall cs _) as [v|] eqn:Ev; [|discriminate]. cbn [fmap] in E.
  injection E as ->. eapply vrun_sync; [|eassumption|eassumption]. constructor.
Qed.
Print Assumptions C69_scales_in_step.

(** the world after a program *)
Definition after (cs : list call) : world := match hrun cs with Ok w => w | Raise _ => start end.
Definition prob_after (cs : list call) (k : nat) : prob := view_prob (after cs) (w_prob (after cs) k).

(** ** A concrete program: two problems, two constraints, scales changed in both ways *)
Definition line (a : R) : bcon :=
  {| c_nin := 1; c_ncon := 1; c_f := map (Rmult a); c_j := fun _ => [a]; c_h := fun _ _ => []; c_jr := [0%nat]; c_jc := [0%nat]; c_hr := []; c_hc := [];
     c_in := [1]; c_con := [1]; c_js := [1 / 1]; c_hs := [] |}.
(** this is what the constructor makes *)
Lemma line_made : forall a, make_con 1 1 (map (Rmult a)) (fun _ => [a]) (fun _ _ => []) (Some ([0%nat], [0%nat])) (Some ([], [])) = Ok (line a).
Proof. reflexivity. Qed.
Definition program : list call :=
  [NewCon (line 1); NewCon (line 3); NewArray [5]; NewProb 1; NewProb 1; AddCon 0 "c" 0; AddCon 1 "c" 1; ScaleNew 0 [2]; ScaleInPlace 1 [4]; ConScaleUser 0 "c" 0; ConScaleNew 1 "c" [7]].
Example C69_nonvacuous : careful [] [] [] program /\ no_reset program /\ exists w p q, hrun program = Ok w /\ problems w = [p; q] /\
  p_scales p = [2] /\ p_scales q = [4] /\ (forall x, prob_constraints p [x] = Ok [1 * (x * 2) / 5]) /\ (forall x, prob_constraints q [x] = Ok [3 * (x * 4) / 7]) /\
  (forall x, prob_jacobian p [x] = Ok [1 / (5 / 2)]) /\ (forall x, prob_jacobian q [x] = Ok [3 / (7 / 4)]).
Proof.
  split; [cbn; repeat split; intros H; repeat (destruct H as [H|H]; try discriminate); try contradiction|]. split; [repeat constructor|].
  exists (after program), (prob_after program 0), (prob_after program 1). split; [vm_compute; reflexivity|]. split; [vm_compute; reflexivity|].
  repeat split; intros; vm_compute; reflexivity.
Qed.

(** ** What goes wrong without care *)
(** one constraint object in two problems: it works in the scales of the problem it was added to last, and the first problem is given wrong values *)
Theorem C69_one_constraint_two_problems_refuted : exists cs w p q, hrun cs = Ok w /\ problems w = [p; q] /\ no_reset cs /\
  p_scales p = [2] /\ (forall x, prob_constraints p [x] = Ok [1 * (x * 1) / 1]) /\
  exists v p', vrun cs = Ok v /\ nth_error (v_prob v) 0 = Some p' /\ forall x, prob_constraints p' [x] = Ok [1 * (x * 2) / 1].
Proof.
  set (cs := [NewCon (line 1); NewProb 1; NewProb 1; AddCon 0 "c" 0; ScaleNew 0 [2]; AddCon 1 "c" 0]). exists cs, (after cs), (prob_after cs 0), (prob_after cs 1).
  split; [vm_compute; reflexivity|]. split; [vm_compute; reflexivity|]. split; [repeat constructor|].
  split; [vm_compute; reflexivity|]. split; [intros; vm_compute; reflexivity|].
  exists (match vrun cs with Ok v => v | Raise _ => {| v_arr := []; v_con := []; v_obj := []; v_prob := [] |} end), (nth 0 (match vrun cs with Ok v => v_prob v | Raise _ => [] end) (make_prob 0)).
  split; [vm_compute; reflexivity|]. split; [vm_compute; reflexivity|]. intros; vm_compute; reflexivity.
Qed.
Print Assumptions C69_one_constraint_two_problems_refuted.
(** then the jacobian of the first problem is right only for scales of one: rescaling the second changes what the first computes *)
Theorem C69_rescaling_the_other_problem_refuted : forall a, exists cs w p q, hrun cs = Ok w /\ problems w = [p; q] /\ p_scales p = [1] /\ forall x, prob_constraints p [x] = Ok [1 * (x * a) / 1].
Proof.
  intros a. set (cs := [NewCon (line 1); NewProb 1; NewProb 1; AddCon 0 "c" 0; AddCon 1 "c" 0; ScaleInPlace 1 [a]]). exists cs, (after cs), (prob_after cs 0), (prob_after cs 1).
  split; [vm_compute; reflexivity|]. split; [vm_compute; reflexivity|]. split; intros; vm_compute; reflexivity.
Qed.
Print Assumptions C69_rescaling_the_other_problem_refuted.
(** an array of scales that is written to after it was handed over: the values follow, the derivatives do not *)
Theorem C69_writing_to_scales_refuted : exists cs w p, hrun cs = Ok w /\ problems w = [p] /\ no_reset cs /\
  (forall x, prob_constraints p [x] = Ok [1 * (x * 1) / 4]) /\ (forall x, prob_jacobian p [x] = Ok [1 / (2 / 1)]) /\ ~ in_sync p.
Proof.
  set (cs := [NewCon (line 1); NewArray [2]; NewProb 1; AddCon 0 "c" 0; ConScaleUser 0 "c" 0; WriteArray 0 [4]]). exists cs, (after cs), (prob_after cs 0).
  split; [vm_compute; reflexivity|]. split; [vm_compute; reflexivity|]. split; [repeat constructor|].
  split; [intros; vm_compute; reflexivity|]. split; [intros; vm_compute; reflexivity|]. intros [H _].
  specialize (H "c"%string (view_con (after cs) (w_con (after cs) 0)) (or_introl eq_refl)). destruct H as [_ [H2 _]].
  assert (E1 : c_js (view_con (after cs) (w_con (after cs) 0)) = [2 / 1]) by (vm_compute; reflexivity). rewrite E1 in H2.
  assert (E2 : map2 (fun r q => vget r (c_con (view_con (after cs) (w_con (after cs) 0))) / vget q (c_in (view_con (after cs) (w_con (after cs) 0))))
    (c_jr (view_con (after cs) (w_con (after cs) 0))) (c_jc (view_con (after cs) (w_con (after cs) 0))) = [4 / 1]) by (vm_compute; reflexivity).
  rewrite E2 in H2. injection H2 as H2. lra.
Qed.
Print Assumptions C69_writing_to_scales_refuted.
(** resetting the scales of a problem that has pieces: the problem thinks that nothing is scaled, the pieces still multiply by the old scales *)
Theorem C69_default_scales_refuted : exists cs w p, careful [] [] [] cs /\ hrun cs = Ok w /\ problems w = [p] /\
  p_scales p = [1] /\ (forall x, prob_constraints p [x] = Ok [1 * (x * 2) / 1]) /\ ~ in_sync p.
Proof.
  set (cs := [NewCon (line 1); NewProb 1; AddCon 0 "c" 0; ScaleNew 0 [2]; DefaultScales 0]). exists cs, (after cs), (prob_after cs 0).
  split; [cbn; tauto|]. split; [vm_compute; reflexivity|]. split; [vm_compute; reflexivity|].
  split; [vm_compute; reflexivity|]. split; [intros; vm_compute; reflexivity|]. intros [H _].
  specialize (H "c"%string (view_con (after cs) (w_con (after cs) 0)) (or_introl eq_refl)). destruct H as [H1 _].
  assert (E1 : c_in (view_con (after cs) (w_con (after cs) 0)) = [2]) by (vm_compute; reflexivity). rewrite E1 in H1.
  assert (E2 : p_scales (prob_after cs 0) = [1]) by (vm_compute; reflexivity). rewrite E2 in H1. injection H1 as H1. lra.
Qed.
Print Assumptions C69_default_scales_refuted.
