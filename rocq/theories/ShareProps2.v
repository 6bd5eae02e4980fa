(** C62: the tire parameters of the example, sharing in the user's tree, a concrete program. *)
From Verif Require Import Base TreeModel TreeSpec ShareModel ShareSpec ShareProofs ShareProofs2 ShareProofs3 ShareProofs4 ShareProps.

(** The loop of the example: the four tires now keep their parameters in the given dict object, every other node keeps its own, no value is written. *)
Theorem C62_example : forall V (h : heap V) l d h', hsharpen_all h l d = Ok h' ->
  h_dicts h' = h_dicts h /\ (forall l2 ns n, leads h' l2 ns n <-> leads h l2 ns n) /\
  (forall c key, In c ["fl"; "fr"; "rl"; "rr"] -> kept_in h' l (["vehicle"; String.append "tire_" c], key) d) /\
  (forall l2 ns key n, leads h l2 ns n -> (forall c, In c ["fl"; "fr"; "rl"; "rr"] -> ~ leads h l ["vehicle"; String.append "tire_" c] n) ->
     kept_in h' l2 (ns, key) (o_data (h_nodes h n))).
Proof.
  intros V h l d h' H. destruct (sharpen_all h l d h' H) as (fl & fr & rl & rr & L1 & L2 & L3 & L4 & Rd). pose proof Rd as (R1 & R2).
  assert (Le : forall l2 ns n, leads h' l2 ns n <-> leads h l2 ns n).
  { intros l2 ns n. rewrite <- !hwalk_leads. now rewrite (redirected_walk _ _ _ _ ns l2 Rd). }
  split; [exact R1|]. split; [exact Le|]. split.
  - intros c key I. unfold kept_in. cbn [fst].
    assert (K : exists n, leads h l ["vehicle"; String.append "tire_" c] n /\ In n [fl; fr; rl; rr]).
    { destruct I as [<-|[<-|[<-|[<-|[]]]]]; [exists fl|exists fr|exists rl|exists rr]; (split; [assumption|cbn; tauto]). }
    destruct K as (n & K1 & K2). exists n. split; [now apply Le|]. rewrite R2. assert (X : existsb (Nat.eqb n) [fl; fr; rl; rr] = true) by (apply existsb_exists; exists n; split; [exact K2|apply Nat.eqb_refl]). now rewrite X.
  - intros l2 ns key n L N. exists n. cbn [fst]. split; [now apply Le|]. rewrite R2. destruct (existsb (Nat.eqb n) [fl; fr; rl; rr]) eqn:X; [|reflexivity]. exfalso.
    apply existsb_exists in X. destruct X as (m & M1 & M2). apply Nat.eqb_eq in M2. subst m. destruct M1 as [<-|[<-|[<-|[<-|[]]]]];
      [apply (N "fl")|apply (N "fr")|apply (N "rl")|apply (N "rr")]; cbn; tauto.
Qed.
Print Assumptions C62_example.

(** a program: a car with four tires, the loop of the example, two problems *)
Definition car : tree unit := Node tt [("vehicle", Node tt [("tire_fl", Node tt []); ("tire_fr", Node tt []); ("tire_rl", Node tt []); ("tire_rr", Node tt [])])].
Definition program : list (event nat) :=
  [UDict []; UDict [("mass", 5)]; UDict [("k", 1)]; UDict [("k", 2)]; UDict [("k", 3)]; UDict [("k", 4)]; UDict [("k", 9)];
   UTree 2 []; UTree 3 []; UTree 4 []; UTree 5 []; UTree 1 [("tire_fl", 0); ("tire_fr", 1); ("tire_rl", 2); ("tire_rr", 3)]; UTree 0 [("vehicle", 4)];
   ONew car 5 true;
   USub 5 "vehicle.tire_fl"; USetData 6 6; UReplace 5 "vehicle.tire_fl" 6; USub 5 "vehicle.tire_fr"; USetData 7 6; UReplace 5 "vehicle.tire_fr" 7;
   USub 5 "vehicle.tire_rl"; USetData 8 6; UReplace 5 "vehicle.tire_rl" 8; USub 5 "vehicle.tire_rr"; USetData 9 6; UReplace 5 "vehicle.tire_rr" 9;
   ONew car 5 false; UCopy 5; USet 5 "vehicle.tire_fl.k" 100; OMod 1 "vehicle.tire_fl.k" 7].
Definition after (n : nat) : world nat := match run 10 start (firstn n program) with Ok w => w | Raise _ => start end.
Lemma after_ok : forall n, is_ok (run 10 start (firstn n program)) = true -> run 10 start (firstn n program) = Ok (after n).
Proof. intros n H. unfold after. destruct (run 10 start (firstn n program)); [reflexivity|discriminate]. Qed.
Lemma car_names : distinct_names car.
Proof.
  cbn. repeat split; try constructor; try exact (fun x => x); cbn; try (intuition discriminate). all: repeat constructor; cbn; intuition discriminate.
Qed.
Lemma after_reachable : forall n, is_ok (run 10 start (firstn n program)) = true -> reachable 10 (after n).
Proof.
  intros n H. exists (firstn n program). split; [|now apply after_ok].
  assert (F : Forall possible program) by (unfold program; repeat (constructor; [first [exact car_names|exact I]|]); constructor).
  clear H. revert F. generalize program. induction n as [|n IH]; intros [|e r] F; cbn [firstn]; try constructor; inversion F; subst; auto.
Qed.

Lemma two_list : forall A (l : list A) a b, List.length l = 2 -> nth_error l 0 = Some a -> nth_error l 1 = Some b -> l = [a; b].
Proof. intros A [|x [|y [|z r]]] a b L E F; cbn in *; congruence. Qed.

(** the values that a problem's tree holds, computed *)
Definition values_of (w : world nat) (k : nat) : result (list nat) := fmap (fun t => leaf_values t) (bind (pick (w_ocps w) k) (fun o => hread 10 (w_h w) (r_params o))).
Lemma values_spec : forall w k vs, reachable 10 w -> values_of w k = Ok vs -> exists o T, nth_error (w_ocps w) k = Some o /\ has_params (w_h w) o T /\ leaf_values T = vs.
Proof.
  intros w k vs R H. unfold values_of in H. apply fmap_ok in H. destruct H as (t & H & E). apply bind_ok in H. destruct H as (o & P & H). apply pick_ok in P. apply hread_sound in H.
  destruct (C62_consistent 10 w k o R P) as (T & HP). exists o, T. rewrite (denotes_fun _ _ _ _ H (hp_tree _ _ _ HP)) in E. auto.
Qed.
Lemma run_last : forall es e (w w' : world nat), run 10 start es = Ok w -> run 10 start (es ++ [e]) = Ok w' -> step 10 w e = Ok w'.
Proof.
  intros es e. generalize (@start nat). induction es as [|x q IH]; intros s w w' H H'; cbn [run app] in *.
  - injection H as <-. destruct (step 10 s e); cbn [bind] in H'; [exact H'|discriminate].
  - destruct (step 10 s x); cbn [bind] in *; [now apply (IH a)|discriminate].
Qed.
Lemma ok14 : is_ok (run 10 start (firstn 14 program)) = true. Proof. vm_compute. reflexivity. Qed.
Lemma ok28 : is_ok (run 10 start (firstn 28 program)) = true. Proof. vm_compute. reflexivity. Qed.
Lemma ok29 : is_ok (run 10 start (firstn 29 program)) = true. Proof. vm_compute. reflexivity. Qed.
Lemma ok30 : is_ok (run 10 start (firstn 30 program)) = true. Proof. vm_compute. reflexivity. Qed.
Lemma len30 : List.length (w_ocps (after 30)) = 2. Proof. vm_compute. reflexivity. Qed.
Lemma vals0 : values_of (after 30) 0 = Ok [5; 1; 2; 3; 4]. Proof. vm_compute. reflexivity. Qed.
Lemma vals1 : values_of (after 30) 1 = Ok [5; 7; 9; 9; 9]. Proof. vm_compute. reflexivity. Qed.
Lemma vals2 : fmap (fun t => leaf_values t) (hread 10 (w_h (after 30)) (nth 10 (w_trees (after 30)) 0)) = Ok [5; 9; 9; 9; 9]. Proof. vm_compute. reflexivity. Qed.
Lemma tires : forall c, In c ["fl"; "fr"; "rl"; "rr"] ->
     hget_param (w_h (after 28)) dot (String.append "vehicle.tire_" (String.append c ".k")) (nth 5 (w_trees (after 28)) 0) = Ok 9 /\
     hget_param (w_h (after 29)) dot (String.append "vehicle.tire_" (String.append c ".k")) (nth 5 (w_trees (after 29)) 0) = Ok 100.
Proof. intros c [<-|[<-|[<-|[<-|[]]]]]; vm_compute; split; reflexivity. Qed.
Lemma prog29 : firstn 29 program = firstn 28 program ++ [USet 5 "vehicle.tire_fl.k" 100]. Proof. reflexivity. Qed.

(** Finding: after the loop of the example one set_param on one tire of the user's tree changes all four tires of that tree; the problem made before, the problem
    made from it and the copy are not affected, and a modification of the problem changes its one tire. *)
Theorem C62_shared_refuted : reachable 10 (after 28) /\ step 10 (after 28) (USet 5 "vehicle.tire_fl.k" 100) = Ok (after 29) /\
  (forall c, In c ["fl"; "fr"; "rl"; "rr"] ->
     hget_param (w_h (after 28)) dot (String.append "vehicle.tire_" (String.append c ".k")) (nth 5 (w_trees (after 28)) 0) = Ok 9 /\
     hget_param (w_h (after 29)) dot (String.append "vehicle.tire_" (String.append c ".k")) (nth 5 (w_trees (after 29)) 0) = Ok 100) /\
  exists o0 o1 T0 T1 T2, w_ocps (after 30) = [o0; o1] /\ has_params (w_h (after 30)) o0 T0 /\ has_params (w_h (after 30)) o1 T1 /\
    leaf_values T0 = [5; 1; 2; 3; 4] /\ leaf_values T1 = [5; 7; 9; 9; 9] /\ denotes (w_h (after 30)) (nth 10 (w_trees (after 30)) 0) T2 /\ leaf_values T2 = [5; 9; 9; 9; 9].
Proof.
  split; [exact (after_reachable 28 ok28)|]. split; [|split; [exact tires|]].
  - apply (run_last (firstn 28 program)); [exact (after_ok 28 ok28)|]. rewrite <- prog29. exact (after_ok 29 ok29).
  - destruct (values_spec _ _ _ (after_reachable 30 ok30) vals0) as (o0 & T0 & E0 & P0 & B0). destruct (values_spec _ _ _ (after_reachable 30 ok30) vals1) as (o1 & T1 & E1 & P1 & B1).
    pose proof vals2 as Q2. apply fmap_ok in Q2. destruct Q2 as (t2 & A2 & B2). apply hread_sound in A2.
    exists o0, o1, T0, T1, t2. split; [exact (two_list _ _ _ _ len30 E0 E1)|exact (conj P0 (conj P1 (conj B0 (conj B1 (conj A2 B2)))))].
Qed.
Print Assumptions C62_shared_refuted.

(** the hypotheses of the theorems are met *)
Definition check_of (w : world nat) (k : nat) : result (bool * nat) :=
  fmap (fun t => (is_ok (set_param dot "vehicle.mass" 6 t), depth t)) (bind (pick (w_ocps w) k) (fun o => hread 10 (w_h w) (r_params o))).
Lemma check_spec : forall w k n, reachable 10 w -> check_of w k = Ok (true, n) ->
  exists o T, nth_error (w_ocps w) k = Some o /\ has_params (w_h w) o T /\ (exists T', set_param dot "vehicle.mass" 6 T = Ok T') /\ depth T = n.
Proof.
  intros w k n R H. unfold check_of in H. apply fmap_ok in H. destruct H as (t & H & E). apply bind_ok in H. destruct H as (o & P & H). apply pick_ok in P. apply hread_sound in H.
  destruct (C62_consistent 10 w k o R P) as (T & HP). exists o, T. rewrite (denotes_fun _ _ _ _ H (hp_tree _ _ _ HP)) in E. injection E as E1 E2. split; [exact P|]. split; [exact HP|]. split; [|exact E2].
  destruct (set_param dot "vehicle.mass" 6 T); [now eexists|discriminate].
Qed.
Lemma check1 : check_of (after 30) 1 = Ok (true, 3). Proof. vm_compute. reflexivity. Qed.
Lemma loop14 : is_ok (hsharpen_all (w_h (after 14)) (nth 5 (w_trees (after 14)) 0) (nth 6 (w_dicts (after 14)) 0)) = true. Proof. vm_compute. reflexivity. Qed.
Lemma is_ok_spec : forall A (r : result A), is_ok r = true -> exists a, r = Ok a.
Proof. intros A [a|e] H; [now exists a|discriminate]. Qed.
Example C62_nonvacuous : reachable 10 (after 30) /\ (exists o T, nth_error (w_ocps (after 30)) 1 = Some o /\ has_params (w_h (after 30)) o T /\
  (exists T', set_param dot "vehicle.mass" 6 T = Ok T') /\ depth T = 3) /\
  (exists h', hsharpen_all (w_h (after 14)) (nth 5 (w_trees (after 14)) 0) (nth 6 (w_dicts (after 14)) 0) = Ok h').
Proof.
  split; [exact (after_reachable 30 ok30)|]. split; [exact (check_spec _ _ _ (after_reachable 30 ok30) check1)|exact (is_ok_spec _ _ loop14)].
Qed.
Print Assumptions C62_nonvacuous.
