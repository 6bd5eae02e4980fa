(** C24 and C25: continuity constraints of the whole problem and their hand-written derivatives. *)
From Verif Require Import Base RBase TreeModel UtilsModel UtilsProofs UtilsProofs2 CollocModel CollocProofs CollocProofs2 CollocProps
  NlpModel NlpProofs NlpProofs2 MeshModel MeshProofs MeshProps OcpModel OcpProofs OcpProofs2 OcpProofs3 OcpSpec.

Lemma built_ok : forall roots tn tns n st inp con pts fixed o, built roots tn tns n st inp con pts fixed o ->
  ocp_ok o /\ (1 <= num_intervals o)%nat /\ (1 <= num_states o)%nat /\ num_intervals o = n /\ num_states o = List.length st /\ gnames_of (oc_op o) "states" = st /\
  gnames_of (oc_op o) "states_dot" = st /\ nspi (oc_op o) = spi o /\ oc_fixed o = fixed /\
  gnames_of (oc_op o) "inputs" = inp /\ gnames_of (oc_op o) "con_outputs" = con /\ make_transcription roots tn tns = Ok (oc_tr o).
Proof.
  intros roots tn tns n st inp con pts fixed o [HO (out & res & HM) Hn Hs].
  destruct (make_ocp_ok _ _ _ _ _ _ _ _ _ _ _ _ HO HM) as (K & En & Es & G1 & G2 & G3 & F & T & M).
  assert (1 <= List.length st)%nat by (destruct st; [contradiction|simpl; lia]).
  split; [exact K|]. split; [lia|]. split; [lia|]. split; [assumption|]. split; [assumption|]. split; [assumption|].
  split; [rewrite (oo_d o K); assumption|]. split; [exact (oo_m o K)|]. auto.
Qed.

Lemma get_var_ok : forall o x g k c nm s, dvo_ok (oc_op o) -> nth_error (sgroups (oc_op o)) k = Some g -> g <> "global" -> nth_error (gnames_of (oc_op o) g) c = Some nm ->
  (s < num_stages (oc_op o))%nat -> List.length x = num_dec (oc_op o) -> (off_of (oc_op o) k + c + s * num_var_stage (oc_op o) < num_all_stage_var (oc_op o))%nat ->
  value_at o x g nm s (vget (off_of (oc_op o) k + c + s * num_var_stage (oc_op o)) x).
Proof.
  intros o x g k c nm s Hok Hk Hg Hc Hs L Hlt. unfold value_at, get_var, index_at.
  destruct (String.eqb_spec g "global"); [contradiction|]. rewrite norm_stage_nat by assumption. cbn [bind]. unfold enum_get.
  rewrite (index_of_svname _ k g c nm Hok Hk Hc). unfold fmap. cbn [bind]. unfold array_get.
  rewrite nth_error_nth' with (d := 0) by (unfold num_dec in L; lia). reflexivity.
Qed.

(** *** C24 *)
(** Every constraint, by interval i, row k and state name: A-combination of the state's values over the interval's
    stages minus physical length times B-combination of its derivative variable. Interval-major, then row, then state. *)
Theorem C24_entries : forall roots tn tns n st inp con pts fixed o x, built roots tn tns n st inp con pts fixed o ->
  List.length x = num_dec (oc_op o) ->
  exists cs s, continuity_constraints o x = Ok cs /\ scale_is o x s /\
    List.length cs = num_continuity_cons o /\ num_continuity_cons o = (n * ((spi o - 1) * List.length st))%nat /\
    forall i k c nm, (i < n)%nat -> (k < spi o - 1)%nat -> nth_error st c = Some nm ->
      exists X D : nat -> R,
        (forall j, (j < spi o)%nat -> value_at o x "states" nm (i * (spi o - 1) + j) (X j) /\ value_at o x "states_dot" nm (i * (spi o - 1) + j) (D j)) /\
        nth (i * ((spi o - 1) * List.length st) + (k * List.length st + c)) cs 0 =
          rsum (map (fun j => entry k j (t_A (oc_tr o)) * X j) (seq 0 (spi o))) -
          norm_len o i * s * rsum (map (fun j => entry k j (t_B (oc_tr o)) * D j) (seq 0 (spi o))).
Proof.
  intros roots tn tns n st inp con pts fixed o x Hb L.
  destruct (built_ok _ _ _ _ _ _ _ _ _ _ Hb) as (K & Hn & Hd & En & Ed & Gs & Gd & Em & Ef & _).
  exists (con_list o x), (scl o x). split; [now apply cons_comp|].
  split. { pose proof (scale_ok o K Hn Hd x L) as S. unfold scale_is, get_mesh_scale in *. destruct (oc_fixed o); [now inversion S|exact S]. }
  assert (num_continuity_cons o = (n * ((spi o - 1) * List.length st))%nat) as EN.
  { unfold num_continuity_cons, spi. rewrite (tr_ncon _ (oo_tr o K)). rewrite En, Ed. lia. }
  split. { rewrite con_list_len by assumption. rewrite EN, Em, En, Ed. reflexivity. }
  split; [exact EN|]. intros i k c nm Hi Hk Hc.
  assert (c < num_states o)%nat as Hc' by (rewrite Ed; apply nth_error_Some; congruence).
  exists (fun j => vget (ia o i j c) x), (fun j => vget (ib o i j c) x). split.
  - intros j Hj. rewrite <- Em in Hj |- *. rewrite <- En in Hi. split.
    + pose proof (get_var_ok o x "states" 0 c nm (i * (nspi (oc_op o) - 1) + j) (oo_dvo o K) (sgS o K Hn Hd) ltac:(discriminate) ltac:(rewrite Gs; exact Hc)) as G.
      apply G; [now apply stage_lt|assumption|]. apply (ia_lt o K Hn Hd i j c); assumption.
    + pose proof (get_var_ok o x "states_dot" 2 c nm (i * (nspi (oc_op o) - 1) + j) (oo_dvo o K) (sgD o K Hn Hd) ltac:(discriminate) ltac:(rewrite Gd; exact Hc)) as G.
      rewrite (offD_eq o K Hn Hd) in G. apply G; [now apply stage_lt|assumption|]. apply (ib_lt o K Hn Hd i j c); assumption.
  - pose proof (con_list_nth o K Hn Hd x i k c ltac:(lia) ltac:(rewrite Em; lia) Hc') as C. rewrite Em, Ed in C. unfold vget at 1 in C. rewrite C.
    unfold Fdef. rewrite Em. unfold entry, norm_len. f_equal.
    rewrite <- rsum_mult_l. apply rsum_ext. intros j _. unfold mget, vget. ring.
Qed.
Print Assumptions C24_entries.

(** The block of interval i is the transcription's continuity formula (C22) applied to the interval's states and
    derivatives with the physical interval length. *)
Theorem C24_blocks : forall roots tn tns n st inp con pts fixed o x, built roots tn tns n st inp con pts fixed o ->
  List.length x = num_dec (oc_op o) ->
  exists cs s, continuity_constraints o x = Ok cs /\ scale_is o x s /\
    forall i, (i < n)%nat -> exists X D : list (list R), List.length X = spi o /\ List.length D = spi o /\
      (forall j c nm, (j < spi o)%nat -> nth_error st c = Some nm ->
         value_at o x "states" nm (i * (spi o - 1) + j) (entry j c X) /\ value_at o x "states_dot" nm (i * (spi o - 1) + j) (entry j c D)) /\
      forall k c, (k < spi o - 1)%nat -> (c < List.length st)%nat ->
        nth (i * ((spi o - 1) * List.length st) + (k * List.length st + c)) cs 0 =
        entry k c (continuity_con (oc_tr o) X D (List.length st) (norm_len o i * s)).
Proof.
  intros roots tn tns n st inp con pts fixed o x Hb L.
  destruct (C24_entries _ _ _ _ _ _ _ _ _ _ x Hb L) as (cs & s & E & Hs & _ & _ & H).
  destruct (built_ok _ _ _ _ _ _ _ _ _ _ Hb) as (K & Hn & Hd & En & Ed & Gs & Gd & Em & Ef & _).
  exists cs, s. split; [assumption|]. split; [assumption|]. intros i Hi.
  exists (map (fun j => map (fun c => vget (ia o i j c) x) (seq 0 (List.length st))) (seq 0 (spi o))),
         (map (fun j => map (fun c => vget (ib o i j c) x) (seq 0 (List.length st))) (seq 0 (spi o))).
  split; [now rewrite map_length, seq_length|]. split; [now rewrite map_length, seq_length|].
  assert (forall j c nm, (j < spi o)%nat -> nth_error st c = Some nm ->
         value_at o x "states" nm (i * (spi o - 1) + j) (vget (ia o i j c) x) /\ value_at o x "states_dot" nm (i * (spi o - 1) + j) (vget (ib o i j c) x)) as HV.
  { intros j c nm Hj Hc. assert (c < num_states o)%nat as Hc' by (rewrite Ed; apply nth_error_Some; congruence). rewrite <- Em in Hj |- *. rewrite <- En in Hi. split.
    + pose proof (get_var_ok o x "states" 0 c nm (i * (nspi (oc_op o) - 1) + j) (oo_dvo o K) (sgS o K Hn Hd) ltac:(discriminate) ltac:(rewrite Gs; exact Hc)) as G.
      apply G; [now apply stage_lt|assumption|]. apply (ia_lt o K Hn Hd i j c); assumption.
    + pose proof (get_var_ok o x "states_dot" 2 c nm (i * (nspi (oc_op o) - 1) + j) (oo_dvo o K) (sgD o K Hn Hd) ltac:(discriminate) ltac:(rewrite Gd; exact Hc)) as G.
      rewrite (offD_eq o K Hn Hd) in G. apply G; [now apply stage_lt|assumption|]. apply (ib_lt o K Hn Hd i j c); assumption. }
  split.
  - intros j c nm Hj Hc. assert (c < List.length st)%nat by (apply nth_error_Some; congruence). unfold entry. rewrite !nth_comp by assumption. now apply HV.
  - intros k c Hk Hc. destruct (nth_error st c) as [nm|] eqn:Ec; [|apply nth_error_None in Ec; lia].
    destruct (H i k c nm Hi Hk Ec) as (X & D & HXD & ->).
    destruct (A_shape o K Hn Hd) as [LA FA]. destruct (B_shape o K Hn Hd) as [LB FB]. rewrite Em in LA, FA, LB, FB.
    match goal with |- _ = entry k c ?M => change (entry k c M) with (mget k c M) end.
    rewrite cont_entry by (rewrite ?LA, ?LB; assumption). unfold col. rewrite !map_map.
    assert (List.length (nth k (t_A (oc_tr o)) []) = spi o) as Lk by (rewrite Forall_forall in FA; apply FA, nth_In; lia).
    assert (List.length (nth k (t_B (oc_tr o)) []) = spi o) as Lk2 by (rewrite Forall_forall in FB; apply FB, nth_In; lia).
    rewrite !vdot_comp by assumption. f_equal.
    + apply rsum_ext. intros j Hj. apply in_seq in Hj. unfold entry, vget at 1. f_equal. unfold vget at 1. rewrite nth_comp by assumption.
      destruct (HXD j ltac:(lia)) as [A1 _]. destruct (HV j c nm ltac:(lia) Ec) as [A2 _]. unfold value_at in *. rewrite A1 in A2. now inversion A2.
    + rewrite Rmult_comm. f_equal. apply rsum_ext. intros j Hj. apply in_seq in Hj. unfold entry, vget at 1. f_equal. unfold vget at 1. rewrite nth_comp by assumption.
      destruct (HXD j ltac:(lia)) as [_ A1]. destruct (HV j c nm ltac:(lia) Ec) as [_ A2]. unfold value_at in *. rewrite A1 in A2. now inversion A2.
Qed.
Print Assumptions C24_blocks.

(** End to end for the default scheme: with "Trapezoidal", all continuity constraints vanish iff every state advances over
    every interval by physical length times the mean of its derivative variables at both ends. *)
Theorem C24_trapezoidal : forall roots n st inp con pts fixed o x, built roots "Trapezoidal" None n st inp con pts fixed o ->
  List.length x = num_dec (oc_op o) ->
  exists cs s, continuity_constraints o x = Ok cs /\ scale_is o x s /\
    (Forall (fun v => v = 0) cs <->
     forall i nm, (i < n)%nat -> In nm st -> exists x0 x1 d0 d1,
       value_at o x "states" nm i x0 /\ value_at o x "states" nm (i + 1) x1 /\
       value_at o x "states_dot" nm i d0 /\ value_at o x "states_dot" nm (i + 1) d1 /\
       x1 = x0 + norm_len o i * s * (d0 + d1) / 2).
Proof.
  intros roots n st inp con pts fixed o x Hb L.
  destruct (C24_entries _ _ _ _ _ _ _ _ _ _ x Hb L) as (cs & s & E & Hs & Lc & EN & H).
  destruct (built_ok _ _ _ _ _ _ _ _ _ _ Hb) as (K & Hn & Hd & En & Ed & Gs & Gd & Em & Ef & _ & _ & HT).
  assert (oc_tr o = trapezoidal) as ET by (symmetry; injection HT; auto).
  assert (spi o = 2%nat) as E2 by (unfold spi; now rewrite ET).
  rewrite E2 in *. rewrite ET in H. exists cs, s. split; [assumption|]. split; [assumption|].
  assert (forall c nm i, (i < n)%nat -> nth_error st c = Some nm -> exists x0 x1 d0 d1,
       value_at o x "states" nm i x0 /\ value_at o x "states" nm (i + 1) x1 /\
       value_at o x "states_dot" nm i d0 /\ value_at o x "states_dot" nm (i + 1) d1 /\
       nth (i * List.length st + c) cs 0 = x1 - x0 - norm_len o i * s * (d0 + d1) / 2) as HH.
  { intros c nm i Hi Hc. destruct (H i 0%nat c nm Hi ltac:(lia) Hc) as (X & D & HV & HE).
    exists (X 0%nat), (X 1%nat), (D 0%nat), (D 1%nat).
    destruct (HV 0%nat ltac:(lia)) as [A0 B0]. destruct (HV 1%nat ltac:(lia)) as [A1 B1]. simpl Nat.sub in *. rewrite Nat.mul_1_r, ?Nat.add_0_r in *.
    split; [assumption|]. split; [assumption|]. split; [assumption|]. split; [assumption|].
    transitivity (nth (i * (1 * List.length st) + (0 * List.length st + c)) cs 0); [f_equal; lia|]. rewrite HE. unfold entry. simpl. lra. }
  split.
  - intros F i nm Hi Hin. apply In_nth_error in Hin. destruct Hin as [c Hc]. destruct (HH c nm i Hi Hc) as (x0 & x1 & d0 & d1 & V0 & V1 & W0 & W1 & HE).
    exists x0, x1, d0, d1. repeat (split; [assumption|]).
    assert (c < List.length st)%nat by (apply nth_error_Some; congruence).
    assert (nth (i * List.length st + c) cs 0 = 0) as Z by (rewrite Forall_forall in F; apply F, nth_In; nia). rewrite Z in HE. lra.
  - intro G. apply Forall_forall. intros v Hv. apply (In_nth _ _ 0) in Hv. destruct Hv as (r & Hr & <-).
    assert (0 < List.length st)%nat by nia.
    assert (r = r / List.length st * List.length st + r mod List.length st)%nat as Er by (pose proof (Nat.div_mod r (List.length st) ltac:(lia)); lia).
    assert (r / List.length st < n)%nat as Hi by (apply Nat.div_lt_upper_bound; lia).
    assert (r mod List.length st < List.length st)%nat as Hc by (apply Nat.mod_upper_bound; lia).
    destruct (nth_error st (r mod List.length st)) as [nm|] eqn:Ec; [|apply nth_error_None in Ec; lia].
    destruct (HH _ nm _ Hi Ec) as (x0 & x1 & d0 & d1 & V0 & V1 & W0 & W1 & HE). rewrite <- Er in HE. rewrite HE.
    destruct (G _ nm Hi (nth_error_In _ _ Ec)) as (y0 & y1 & e0 & e1 & V0' & V1' & W0' & W1' & HE').
    unfold value_at in *. rewrite V0 in V0'. rewrite V1 in V1'. rewrite W0 in W0'. rewrite W1 in W1'. inversion V0'; inversion V1'; inversion W0'; inversion W1'. subst. lra.
Qed.
Print Assumptions C24_trapezoidal.

(** *** C25 *)
(** Structure and values of the hand-written jacobian: same number of entries, entries in range, and the matrix they
    describe (entries at the same place added up, zero elsewhere) is the matrix of partial derivatives in every
    decision variable, at every point. *)
Theorem C25_jacobian : forall roots tn tns n st inp con pts fixed o, built roots tn tns n st inp con pts fixed o ->
  exists rs cs vals f,
    continuity_jacobianstructure o = Ok (rs, cs) /\
    (forall x, List.length x = num_dec (oc_op o) -> continuity_jacobian o x = Ok (vals x) /\ continuity_constraints o x = Ok (f x) /\
       List.length (vals x) = List.length rs) /\
    List.length rs = List.length cs /\
    Forall (fun r => (r < num_continuity_cons o)%nat) rs /\ Forall (fun q => (q < num_dec (oc_op o))%nat) cs /\
    is_jacobian (num_dec (oc_op o)) (num_continuity_cons o) f (fun x => tri rs cs (vals x)).
Proof.
  intros roots tn tns n st inp con pts fixed o Hb.
  destruct (built_ok _ _ _ _ _ _ _ _ _ _ Hb) as (K & Hn & Hd & En & Ed & Gs & Gd & Em & Ef & _).
  assert (num_continuity_cons o = (num_intervals o * ((nspi (oc_op o) - 1) * num_states o))%nat) as EN.
  { unfold num_continuity_cons. rewrite (tr_ncon _ (oo_tr o K)), <- (oo_m o K). lia. }
  exists (jacR o), (jacC o), (jacV o), (con_list o). rewrite EN.
  split; [now apply jac_struct|]. split.
  - intros x L. split; [now apply jac_vals|]. split; [now apply cons_comp|]. now apply jac_lens.
  - split; [now apply (jac_lens o K Hn Hd [])|]. destruct (jac_range o K Hn Hd). split; [assumption|]. split; [assumption|]. now apply jac_exact.
Qed.
Print Assumptions C25_jacobian.

(** Hessian with the mesh scale as a variable: structure and values describe the upper triangle of the second derivatives
    of the lagrangian of the continuity constraints, for all multipliers; a wrong number of multipliers is rejected. *)
Theorem C25_hessian : forall roots tn tns n st inp con pts o, built roots tn tns n st inp con pts None o ->
  exists rs cs vals f,
    continuity_hessianstructure o = Ok (rs, cs) /\
    (forall x, List.length x = num_dec (oc_op o) -> continuity_constraints o x = Ok (f x)) /\
    (forall lam, List.length lam = num_continuity_cons o -> continuity_hessian o lam = Ok (vals lam) /\ List.length (vals lam) = List.length rs) /\
    (forall lam, List.length lam <> num_continuity_cons o -> continuity_hessian o lam = Raise ValueError) /\
    List.length rs = List.length cs /\ Forall (fun r => (r < num_dec (oc_op o))%nat) rs /\ Forall (fun q => (q < num_dec (oc_op o))%nat) cs /\
    Forall2 (fun r q => (r <= q)%nat) rs cs /\
    forall lam, List.length lam = num_continuity_cons o ->
      is_hessian_on (fun p q => (p <= q)%nat) (num_dec (oc_op o)) (fun x => vdot lam (f x)) (fun _ => tri rs cs (vals lam)).
Proof.
  intros roots tn tns n st inp con pts o Hb.
  destruct (built_ok _ _ _ _ _ _ _ _ _ _ Hb) as (K & Hn & Hd & En & Ed & Gs & Gd & Em & Ef & _).
  assert (num_continuity_cons o = (num_intervals o * ((nspi (oc_op o) - 1) * num_states o))%nat) as EN.
  { unfold num_continuity_cons. rewrite (tr_ncon _ (oo_tr o K)), <- (oo_m o K). lia. }
  destruct (hess_range o K Hn Hd Ef) as (R1 & R2 & R3 & R4). destruct (index_scale o K Hn Hd Ef) as (_ & _ & H2).
  exists (hessR o), (hessC o), (hessV o), (con_list o). rewrite EN.
  split; [now apply hess_struct|]. split; [intros; now apply cons_comp|]. split; [intros lam L; split; [now apply hess_vals|apply R4]|].
  split. { intros lam L. unfold continuity_hessian. destruct (Nat.eqb_spec (List.length lam) (num_intervals o * (nspi (oc_op o) - 1) * num_states o)); [|reflexivity]. exfalso. apply L. lia. }
  split; [assumption|]. split; [assumption|]. split; [assumption|]. split.
  - unfold hessC in *. rewrite comp3_const in *. rewrite repeat_length in R3. rewrite <- R3. clear -R1 H2. induction R1 as [|r l H R IH]; simpl; constructor; [lia|exact IH].
  - intros lam L. now apply hess_exact.
Qed.
Print Assumptions C25_hessian.

(** On a fixed mesh the problem registers the constraints as linear (no hessian entries): every second derivative of
    the lagrangian is indeed zero. *)
Theorem C25_fixed_mesh_linear : forall roots tn tns n st inp con pts s o, built roots tn tns n st inp con pts (Some s) o ->
  exists f, (forall x, List.length x = num_dec (oc_op o) -> continuity_constraints o x = Ok (f x)) /\
    forall lam, List.length lam = num_continuity_cons o -> is_hessian (num_dec (oc_op o)) (fun x => vdot lam (f x)) (fun _ _ _ => 0).
Proof.
  intros roots tn tns n st inp con pts s o Hb.
  destruct (built_ok _ _ _ _ _ _ _ _ _ _ Hb) as (K & Hn & Hd & En & Ed & Gs & Gd & Em & Ef & _).
  exists (con_list o). split; [intros; now apply cons_comp|]. intros lam L. apply (hess_fixed o K Hn Hd lam s Ef).
  rewrite L. unfold num_continuity_cons. rewrite (tr_ncon _ (oo_tr o K)), <- (oo_m o K). lia.
Qed.
Print Assumptions C25_fixed_mesh_linear.

(** Both kinds of problem exist: LGR on 2 intervals with a variable mesh scale, Trapezoidal on a fixed mesh of scale 5. *)
Example C24_nonvacuous :
  (exists o, built (fun _ => [-1; 1/3]) "LGR" None 2 ["p"; "v"] ["u"] ["y"] None None o /\ num_dec (oc_op o) = 31%nat /\ num_continuity_cons o = 8%nat) /\
  (exists o, built (fun _ => [-1; 1/3]) "Trapezoidal" None 2 ["p"; "v"] ["u"] [] None (Some 5) o /\ num_dec (oc_op o) = 15%nat /\ num_continuity_cons o = 4%nat).
Proof.
  split.
  - destruct (make_ocp (fun _ => [-1; 1/3]) "LGR" None 2 ["p"; "v"] ["u"] ["y"] ["y"] [] None None) as [o|e] eqn:E; [|vm_compute in E; discriminate].
    exists o. split; [constructor; [exact (proj1 C22_nonvacuous)| |lia|discriminate]; exists ["y"], []; exact E|].
    cbv -[Rplus Rmult Rminus Ropp Rinv IZR INR Rdiv] in E. inversion E; subst o. split; reflexivity.
  - exists {| oc_op := {| mvn := model_names ["p"; "v"] ["u"] [] [] []; sgroups := implicit_inputs; gnames := []; nintervals := 2; nspi := 2 |};
       oc_tr := trapezoidal; oc_mesh := map (interval_mesh trapezoidal (linspace01 2)) (seq 0 2); oc_fixed := Some 5; oc_nres := 0 |}.
    split; [|split; reflexivity]. constructor; [exact (proj1 C22_nonvacuous)| |lia|discriminate]. exists [], []. unfold make_ocp, rltb.
    destruct (Rlt_dec 0 5); [reflexivity|lra].
Qed.
Definition C25_nonvacuous := C24_nonvacuous.
