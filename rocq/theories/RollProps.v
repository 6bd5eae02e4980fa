(** C73: the helpers of the model tests. *)
From Verif Require Import Base RBase NumpyModel NumpySpec NumpyProps CollocModel OcpSpec OrderSpec OrderProofs RollModel RollSpec RollProofs RollProofs2.
Import ListNotations.
Open Scope R_scope.

(** A rollout returns exactly the end of a path of explicit Euler steps - and the outputs of the state one step before it. *)
Theorem C73_rollout : forall fwd inputs h init n r, NoDup (keys init) ->
  (roll fwd inputs h init (S n) = Ok r <-> exists path outs, path 0%nat = init /\ euler_steps fwd inputs h (S n) path outs /\ r = (path (S n), outs n)).
Proof.
  intros fwd inputs h init n r N. unfold roll. split.
  - intro H. destruct (roll_steps fwd inputs h (seq 0 (S n)) init None) as [[s' l]|] eqn:E; [|discriminate]. cbn [bind fst snd] in H. apply steps_iff in E; [|assumption]. destruct E as (path & outs & P0 & PS & -> & ->). injection H as <-.
    exists path, outs. split; [assumption|]. split; [intros k Hk; apply PS; lia|reflexivity].
  - intros (path & outs & P0 & PS & ->). assert (roll_steps fwd inputs h (seq 0 (S n)) init None = Ok (path (S n), Some (outs n))) as ->; [|reflexivity]. apply steps_iff; [assumption|]. exists path, outs. split; [assumption|]. split; [intros k Hk; apply PS; lia|now split].
Qed.
(** With no steps to take there is nothing to return: the outputs have no name. *)
Theorem C73_zero_steps : forall fwd inputs h init, roll fwd inputs h init 0 = Raise NameError.
Proof. reflexivity. Qed.
(** It fails exactly where the model fails on the path, or returns no derivative for one of the states. *)
Theorem C73_refused : forall fwd inputs h init n e, NoDup (keys init) ->
  (roll fwd inputs h init (S n) = Raise e <-> exists j path outs, (j <= n)%nat /\ path 0%nat = init /\ euler_steps fwd inputs h j path outs /\
    (fwd (path j) inputs (INR j * h) = Raise e \/ exists sd out nm, fwd (path j) inputs (INR j * h) = Ok (sd, out) /\ In nm (keys init) /\ dget nm sd = None /\ e = KeyError)).
Proof.
  intros fwd inputs h init n e N. unfold roll. assert (forall path outs j, path 0%nat = init -> euler_steps fwd inputs h j path outs -> keys (path j) = keys init) as KK.
  { intros path outs j P0 ES. assert (forall k, (k <= j)%nat -> keys (path k) = keys init) as A; [|now apply A]. induction k as [|k IH]; intro Hk; [now rewrite P0|]. destruct (ES k ltac:(lia)) as (sd & _ & K & _). rewrite K. apply IH. lia. }
  split.
  - intro H. destruct (roll_steps fwd inputs h (seq 0 (S n)) init None) as [[s' l]|e'] eqn:E; cbn [bind fst snd] in H.
    + apply steps_iff in E; [|assumption]. destruct E as (path & outs & P0 & PS & -> & ->). discriminate.
    + injection H as ->. apply steps_err in E; [|assumption]. destruct E as (j & path & outs & Hj & P0 & PS & C). exists j, path, outs. split; [lia|]. split; [assumption|]. assert (euler_steps fwd inputs h j path outs) as ES by (intros k Hk; apply PS; lia). split; [exact ES|].
      destruct C as [C|(sd & o & nm & C1 & C2 & C3 & C4)]; [now left|right]. exists sd, o, nm. rewrite (KK path outs j P0 ES) in C2. auto.
  - intros (j & path & outs & Hj & P0 & ES & C). assert (roll_steps fwd inputs h (seq 0 (S n)) init None = Raise e) as ->; [|reflexivity]. apply steps_err; [assumption|]. exists j, path, outs. split; [lia|]. split; [assumption|]. split; [intros k Hk; apply ES; lia|].
    destruct C as [C|(sd & o & nm & C1 & C2 & C3 & C4)]; [now left|right]. exists sd, o, nm. rewrite (KK path outs j P0 ES). auto.
Qed.
(** The path satisfies the continuity condition of the ForwardEuler transcription, step by step (whatever the derivative at the end of the step is). *)
Theorem C73_transcription : forall fwd inputs h n path outs k nm v w d d', euler_steps fwd inputs h n path outs -> (k < n)%nat ->
  dget nm (path k) = Some v -> dget nm (path (S k)) = Some w -> (exists sd out, fwd (path k) inputs (INR k * h) = Ok (sd, out) /\ dget nm sd = Some d) ->
  continuity_con forward_euler [[v]; [w]] [[d]; [d']] 1 h = [[0]].
Proof.
  intros fwd inputs h n path outs k nm v w d d' ES Hk Hv Hw (sd & out & EF & Hd). destruct (ES k Hk) as (sd' & EF' & _ & EV). rewrite EF in EF'. injection EF' as <- _. destruct (EV nm v Hv) as (d2 & Hd2 & Hw2). rewrite Hd in Hd2. injection Hd2 as <-. rewrite Hw in Hw2. injection Hw2 as ->.
  unfold continuity_con, forward_euler, t_A, t_B. cbn. do 2 f_equal. field.
Qed.
(** Convergence: if the model has a motion with these inputs, twice differentiable with second derivatives up to [M], and is Lipschitz with constant [K] where the path
    goes, then a rollout that starts within [e0] of the motion is within exp (K T) (e0 + T M h) of it at time T = n h. *)
Theorem C73_converges : forall st inp fwd G K M inputs h n init states out u Y e0, 0 <= K -> 0 <= M -> 0 <= h -> 0 <= e0 -> NoDup st -> keys init = st ->
  motion st inp fwd G 0 (INR (S n) * h) 1 M u Y -> lipschitz st fwd G K -> (forall tau, 0 <= tau <= INR (S n) * h -> carries inp (fun nm => u nm tau) inputs) ->
  (forall k path outs, (k <= n)%nat -> path 0%nat = init -> euler_steps fwd inputs h k path outs -> G (path k) inputs (INR k * h)) ->
  (forall nm v, dget nm init = Some v -> Rabs (v - Y nm 0%nat 0) <= e0) ->
  roll fwd inputs h init (S n) = Ok (states, out) ->
  let T := INR (S n) * h in forall nm v, dget nm states = Some v -> Rabs (v - Y nm 0%nat T) <= exp (K * T) * (e0 + T * (M * h)).
Proof.
  intros st inp fwd G K M inputs h n init states out u Y e0 HK HM Hh He ND K0 MO LI HU HG H0 HR T nm v Hv. apply C73_rollout in HR; [|now rewrite K0]. destruct HR as (path & outs & P0 & ES & [= -> ->]).
  apply (rollout_converges st inp fwd G K M inputs h (S n) path outs u Y e0); auto; rewrite ?P0; auto. intros k Hk. apply (HG k path outs); [lia|assumption|]. intros j Hj. apply ES. lia.
Qed.
(** When the states are arrays the dictionary is copied but not the arrays: the rollout of the same numbers is computed, and the caller's own initial state is
    overwritten by the final one. *)
Theorem C73_arrays_refuted : forall fwd inputs h init n H, NoDup (map snd init) ->
  match roll fwd inputs h (read H init) n with
  | Ok (states, out) => exists H', roll_arrays fwd inputs h init n H = Ok (H', (init, out)) /\ read H' init = states /\ forall c, ~ In c (map snd init) -> H' c = H c
  | Raise e => roll_arrays fwd inputs h init n H = Raise e end.
Proof.
  intros fwd inputs h init n H N. unfold roll, roll_arrays. pose proof (cells_steps fwd inputs h (seq 0 n) init H None N) as C. destruct (roll_cells fwd inputs h (seq 0 n) init H None) as [[H' l]|e].
  - destruct C as [-> C2]. cbn [bind fst snd]. destruct l as [out|]; [|reflexivity]. exists H'. auto.
  - now rewrite C.
Qed.
(** A test run under several backends: whatever it does and however it ends, the backend is afterwards the one before; there is one sub-test per name, in order, under the
    backend of that name - or, for a name that is not a backend, under the one that was in force - and what it reports is what happened, other exceptions under the
    name that was asked for. *)
Theorem C73_backends : forall bs fn cur, valid cur -> fst (use_backends bs fn cur) = cur /\
  Forall2 (fun asked r => backend_for cur asked (fst r) /\ snd r = match snd (fn (fst r)) with Passed => Pass | Failed => Fail | Errored => ErrorWith asked end) bs (snd (use_backends bs fn cur)).
Proof.
  intros bs fn cur V. unfold use_backends. destruct (sub_tests_ok fn cur bs cur V (fun _ => eq_refl)) as (A & B & C). split; [|exact C]. destruct bs; [now apply B|apply A; discriminate].
Qed.
Print Assumptions C73_rollout.
Print Assumptions C73_zero_steps.
Print Assumptions C73_refused.
Print Assumptions C73_transcription.
Print Assumptions C73_converges.
Print Assumptions C73_arrays_refuted.
Print Assumptions C73_backends.

(** ** the hypotheses are met: x' = x with an input that is ignored *)
Definition ex_growth (s i : dict R) (t : R) : result (dict R * dict R) := bind (lookup_err "x" s) (fun v => Ok ([("x"%string, v)], [("y"%string, 2 * v)])).
Example C73_nonvacuous : roll ex_growth [("u"%string, 5)] (1/2) [("x"%string, 1)] 2 = Ok ([("x"%string, 1 + 1 * (1/2) + (1 + 1 * (1/2)) * (1/2))], [("y"%string, 2 * (1 + 1 * (1/2)))]).
Proof. reflexivity. Qed.
Example C73_array_nonvacuous : exists H', roll_arrays ex_growth [] 1 [("x"%string, 0%nat)] 1 (fun _ => 1) = Ok (H', ([("x"%string, 0%nat)], [("y"%string, 2 * 1)])) /\ H' 0%nat = 1 + 1 * 1 /\ H' 0%nat <> 1 /\ H' 1%nat = 1.
Proof. eexists. split; [reflexivity|]. unfold put. cbn. repeat split; lra. Qed.
Example C73_backend_nonvacuous : use_backends ["jax"; "jxa"; "numpy"] (fun b => ("casadi"%string, if String.eqb b "numpy" then Errored else Passed)) "casadi" =
  ("casadi"%string, [("jax"%string, Pass); ("casadi"%string, Pass); ("numpy"%string, ErrorWith "numpy")]).
Proof. reflexivity. Qed.
Lemma ex_path : forall path outs h, path 0%nat = [("x"%string, 1)] -> forall k, euler_steps ex_growth [] h k path outs -> exists v, path k = [("x"%string, v)].
Proof.
  intros path outs h P0. induction k as [|k IH]; intro ES; [now exists 1|]. destruct IH as (v & IV); [intros j Hj; apply ES; lia|]. destruct (ES k ltac:(lia)) as (sd & _ & K & _). rewrite IV in K. destruct (path (S k)) as [|[a w] [|? ?]]; try discriminate. cbn in K. injection K as ->. now exists w.
Qed.
Example C73_motion_nonvacuous : forall n h, 0 <= h -> INR (S n) * h <= 1 ->
  let G := fun (ds di : dict R) (_ : R) => exists v, ds = [("x"%string, v)] in let Y := fun (_ : string) (_ : nat) (t : R) => exp t in
  motion ["x"%string] [] ex_growth G 0 (INR (S n) * h) 1 (exp 1) (fun _ _ => 0) Y /\ lipschitz ["x"%string] ex_growth G 1 /\
  (forall tau, 0 <= tau <= INR (S n) * h -> carries [] (fun nm => 0) []) /\
  (forall k path outs, (k <= n)%nat -> path 0%nat = [("x"%string, 1)] -> euler_steps ex_growth [] h k path outs -> G (path k) [] (INR k * h)) /\
  (forall nm v, dget nm [("x"%string, 1)] = Some v -> Rabs (v - Y nm 0%nat 0) <= 0) /\ exists r, roll ex_growth [] h [("x"%string, 1)] (S n) = Ok r.
Proof.
  intros n h Hh HT G Y. repeat apply conj.
  - constructor.
    + intros tau ds di _ [K V] _. destruct ds as [|[a v] [|? ?]]; try discriminate. cbn in K. injection K as ->. assert (v = exp tau) as -> by (apply (V "x"%string v); reflexivity). split; [eexists; reflexivity|]. eexists. eexists. split; [reflexivity|]. intros nm [<-|[]]. reflexivity.
    + intros. apply derivable_pt_lim_exp.
    + intros nm tau _ Ht. unfold Y. rewrite Rabs_right by (left; apply exp_pos). destruct (Req_dec tau 1) as [->|]; [lra|]. left. apply exp_increasing. lra.
  - intros ds ds' di tau sd out sd' out' E (v & ->) (v' & ->) H1 H2 HE nm w w' [<-|[]] D1 D2. cbn in H1, H2. injection H1 as <- _. injection H2 as <- _. cbn in D1, D2. injection D1 as <-. injection D2 as <-. rewrite Rmult_1_l. apply (HE "x"%string); cbn; auto.
  - intros tau _. split; [reflexivity|discriminate].
  - intros k path outs _ P0 ES. exact (ex_path path outs h P0 k ES).
  - intros nm v. cbn. destruct (String.eqb nm "x"); [|discriminate]. intros [= <-]. unfold Y. rewrite exp_0. rewrite Rminus_diag_eq, Rabs_R0 by reflexivity. lra.
  - destruct (roll ex_growth [] h [("x"%string, 1)] (S n)) as [r|e] eqn:E; [now exists r|]. exfalso. apply C73_refused in E; [|repeat constructor; intros []]. destruct E as (j & path & outs & _ & P0 & ES & C). destruct (ex_path path outs h P0 j ES) as (v & PV). rewrite PV in C. cbn in C. destruct C as [C|(sd & o & nm & C1 & [<-|[]] & C3 & _)]; [discriminate|]. injection C1 as <- _. discriminate.
Qed.
