(** C42: objectives and their derivatives. *)
From Verif Require Import Base RBase TreeModel UtilsModel UtilsProofs UtilsProofs2 CollocModel CollocProofs CollocProps MeshModel MeshProofs NlpModel NlpProofs NlpProofs2 OcpModel OcpProofs OcpProofs2 OcpProofs3 OcpSpec OcpProps
  BoundModel BoundSpec BoundProofs BoundProps CyclicModel CyclicSpec CyclicProps ObjModel ObjSpec ObjProofs.

Lemma vget_zeros : forall (x : list R) j, vget j (map (fun _ => 0) x) = 0.
Proof. intros x j. unfold vget. revert j; induction x; intros [|j]; simpl; auto. Qed.

(** *** minimum time with a scaled mesh: the objective is the mesh_scale variable *)
Theorem C42_time_scaled : forall roots tn tns n st inp con pts o, built roots tn tns n st inp con pts None o ->
  exists f g, (forall x, List.length x = num_dec (oc_op o) -> time_objective_scaled o x = Ok (f x) /\ scale_is o x (f x) /\ time_gradient_scaled o x = Ok (g x) /\ List.length (g x) = num_dec (oc_op o)) /\
    is_gradient (num_dec (oc_op o)) f (fun x j => vget j (g x)) /\ is_hessian (num_dec (oc_op o)) f (fun _ => tri [] [] []).
Proof.
  intros roots tn tns n st inp con pts o Hb. destruct (built_ok _ _ _ _ _ _ _ _ _ _ Hb) as (K & Hn & Hd & _ & _ & _ & _ & _ & EF & _).
  set (op := oc_op o) in *. assert (gnames op = ["mesh_scale"]) as EG by (unfold op; now rewrite (oo_gn o K), EF).
  assert (num_dec op = num_all_stage_var op + 1)%nat as ND by (unfold num_dec, num_global_var; rewrite EG; reflexivity).
  exists (vget (num_all_stage_var op)), (fun x => upd (num_all_stage_var op) 1 (map (fun _ => 0) x)).
  assert (forall x, index_at op "global" "mesh_scale" x = Ok (num_all_stage_var op)) as EI by (intro x; unfold index_at; rewrite EG; simpl; now rewrite Nat.add_0_r).
  assert (is_gradient (num_dec op) (vget (num_all_stage_var op)) (fun x j => vget j (upd (num_all_stage_var op) 1 (map (fun _ => 0) x)))) as HG.
  { intros x j L Hj. eapply pderiv_eq; [|apply pderiv_coord; lia]. destruct (Nat.eqb_spec (num_all_stage_var op) j) as [<-|Hne].
    - rewrite vget_upd_same; [reflexivity|]. rewrite map_length. lia.
    - rewrite vget_upd_other by congruence. now rewrite vget_zeros. }
  split; [|split; [exact HG|]].
  - intros x L. destruct (flatten_unflatten op x (NDG o K Hn Hd) (NVS o K Hn Hd) L) as (d & E & EF2 & HK). split; [|split; [|split]].
    + unfold time_objective_scaled. fold op. rewrite E. cbn [bind]. destruct HK as [HK1 HK2]. destruct (HK2 "mesh_scale") as [v Ev]; [rewrite EG; now left|]. rewrite Ev. simpl.
      destruct (flat_global o K Hn Hd d x v (conj HK1 HK2) EF2 EF Ev) as [F _]. fold op in F. now rewrite <- F.
    + unfold scale_is. rewrite EF. unfold get_var. fold op. rewrite EI. cbn [bind]. unfold array_get. now rewrite (nth_error_nth' x 0) by lia.
    + unfold time_gradient_scaled. fold op. now rewrite EI.
    + now rewrite upd_length, map_length.
  - exists (fun x j => if Nat.eqb (num_all_stage_var op) j then 1 else 0). split.
    + intros x j L Hj. apply pderiv_coord. lia.
    + intros x j k L Hj Hk. simpl. apply pderiv_const.
Qed.
Print Assumptions C42_time_scaled.

(** *** minimum time with a fixed mesh: the objective is the state "time" at the last stage minus its value at the first stage *)
Theorem C42_time_fixed : forall roots tn tns n st inp con pts fixed o, built roots tn tns n st inp con pts fixed o -> In "time" st ->
  exists f g, (forall x, List.length x = num_dec (oc_op o) -> time_objective_fixed o x = Ok (f x) /\ time_gradient_fixed o x = Ok (g x) /\ List.length (g x) = num_dec (oc_op o) /\
      exists t0 t1, value_at o x "states" "time" 0 t0 /\ value_at o x "states" "time" (num_stages (oc_op o) - 1) t1 /\ f x = t1 - t0) /\
    is_gradient (num_dec (oc_op o)) f (fun x j => vget j (g x)) /\ is_hessian (num_dec (oc_op o)) f (fun _ => tri [] [] []).
Proof.
  intros roots tn tns n st inp con pts fixed o Hb Ht. destruct (built_ok _ _ _ _ _ _ _ _ _ _ Hb) as (K & Hn & Hd & En & _ & G1 & _ & Em & EF & _).
  destruct (cyclic_idx _ _ _ _ _ _ _ _ _ o "states" "time" Hb (or_introl (conj eq_refl Ht))) as (s & e & E1 & E2 & E3 & Ls & Le). set (op := oc_op o) in *.
  assert (s <> e) as Hse.
  { intros <-. assert (2 <= num_stages op)%nat as N2.
    { unfold num_stages. fold op in En. unfold num_intervals in En, Hn. fold op in Hn, En. pose proof (tr_two _ (oo_tr o K)) as T2. pose proof (oo_m o K) as M. fold op in M. assert (nintervals op * 1 <= nintervals op * (nspi op - 1))%nat by (apply Nat.mul_le_mono_l; lia). lia. }
    assert (is_var op "states" "time") as Hv by (unfold is_var; rewrite G1; unfold op; rewrite (oo_sg o K); split; [simpl; auto|assumption]).
    destruct (index_inj op "states" "time" 0 "states" "time" (num_stages op - 1) s (oo_dvo o K) ltac:(discriminate) ltac:(discriminate) Hv Hv ltac:(lia) ltac:(lia) E1 E3) as (_ & _ & X). lia. }
  exists (fun x => vget e x - vget s x), (fun x => upd s (- (1)) (upd e 1 (map (fun _ => 0) x))).
  split; [|split].
  - intros x L. split; [|split; [|split]].
    + unfold time_objective_fixed. fold op. rewrite E2, E1. cbn [bind]. unfold array_get. rewrite !(nth_error_nth' x 0) by lia. reflexivity.
    + unfold time_gradient_fixed. fold op. rewrite E2, E1. reflexivity.
    + now rewrite !upd_length, map_length.
    + exists (vget s x), (vget e x). unfold value_at, get_var. fold op. change (Z.of_nat 0) with 0%Z. rewrite E1, E3. cbn [bind]. unfold array_get. rewrite !(nth_error_nth' x 0) by lia. auto.
  - intros x j L Hj. eapply pderiv_eq; [|apply pderiv_sub; apply pderiv_coord; lia]. destruct (Nat.eqb_spec s j) as [<-|Hsj].
    + rewrite vget_upd_same by (rewrite upd_length, map_length; lia). destruct (Nat.eqb_spec e s); [congruence|lra].
    + rewrite vget_upd_other by congruence. destruct (Nat.eqb_spec e j) as [<-|Hej].
      * rewrite vget_upd_same by (rewrite map_length; lia). lra.
      * rewrite vget_upd_other by congruence. rewrite vget_zeros. lra.
  - exists (fun x j => (if Nat.eqb e j then 1 else 0) - (if Nat.eqb s j then 1 else 0)). split.
    + intros x j L Hj. apply pderiv_sub; apply pderiv_coord; lia.
    + intros x j k L Hj Hk. simpl. apply pderiv_const.
Qed.
Print Assumptions C42_time_fixed.

(** *** input penalty *)
Lemma expand_ok : forall roots tn tns n st inp con pts fixed o weights, built roots tn tns n st inp con pts fixed o -> NoDup (keys weights) ->
  (incl (keys weights) inp -> exists w, expand_weights o weights = Ok w /\ w = map (fun c => weight_of weights (nth c inp "")) (seq 0 (List.length inp))) /\
  (~ incl (keys weights) inp -> expand_weights o weights = Raise ValueError).
Proof.
  intros roots tn tns n st inp con pts fixed o weights Hb ND. destruct (built_ok _ _ _ _ _ _ _ _ _ _ Hb) as (K & Hn & Hd & _ & _ & _ & _ & _ & EF & G3 & _).
  assert (NoDup inp) as NDI.
  { rewrite <- G3. pose proof (ok_names _ (oo_dvo o K)) as X. unfold stage_var_names in X. rewrite (oo_sg o K) in X. unfold implicit_inputs in X. simpl in X.
    apply NoDup_app_inv in X. destruct X as (_ & X & _). apply NoDup_app_inv in X. destruct X as (X & _ & _). now apply NoDup_map_inv in X. }
  assert (forall nm, index_in_group (oc_op o) "inputs" nm = match index_of nm inp with Some i => Ok i | None => Raise ValueError end) as EI.
  { intro nm. unfold index_in_group. simpl. unfold group_names. rewrite <- G3. unfold gnames_of. destruct (ok_groups _ (oo_dvo o K) "inputs") as [l El]; [rewrite (oo_sg o K); simpl; auto|]. now rewrite El. }
  unfold expand_weights. assert (group_size (oc_op o) "inputs" = List.length inp) as -> by (unfold group_size; now rewrite G3).
  assert (forall (ws : dict R) (F : string -> R) v, v = map (fun c => F (nth c inp "")) (seq 0 (List.length inp)) -> NoDup (keys ws) ->
    (incl (keys ws) inp -> fold_left (fun acc nw => bind acc (fun v => fmap (fun i => upd i (snd nw) v) (index_in_group (oc_op o) "inputs" (fst nw)))) ws (Ok v) =
       Ok (map (fun c => match dget (nth c inp "") ws with Some w => w | None => F (nth c inp "") end) (seq 0 (List.length inp)))) /\
    (~ incl (keys ws) inp -> fold_left (fun acc nw => bind acc (fun v => fmap (fun i => upd i (snd nw) v) (index_in_group (oc_op o) "inputs" (fst nw)))) ws (Ok v) = Raise ValueError)) as G.
  { induction ws as [|[nm w] ws IH]; intros F v Ev NDk.
    - split; [intros _; simpl; now subst v|]. intro H. exfalso. apply H. intros ? [].
    - simpl in NDk. apply NoDup_cons_iff in NDk. destruct NDk as [Hnin NDk']. subst v. cbn [fold_left]. cbn [bind fst snd]. rewrite EI. destruct (index_of nm inp) as [i|] eqn:Ei.
      + cbn [fmap bind]. apply index_of_lt in Ei as Ei'. destruct Ei' as [Hi Ni].
        assert (upd i w (map (fun c => F (nth c inp "")) (seq 0 (List.length inp))) = map (fun c => (fun q => if String.eqb q nm then w else F q) (nth c inp "")) (seq 0 (List.length inp))) as Eu.
        { apply (list_eq_nth _ 0); [now rewrite upd_length, !map_length|]. intros c Hc. rewrite upd_length, map_length, seq_length in Hc. rewrite upd_nth, map_length, seq_length.
          rewrite !(nth_map_in _ _ _ _ _ _ 0%nat) by (now rewrite seq_length). rewrite seq_nth by assumption. simpl. destruct (Nat.eqb_spec c i) as [->|Hci].
          - rewrite (nth_error_nth _ _ _ Ni), String.eqb_refl. apply Nat.ltb_lt in Hi. now rewrite Hi.
          - destruct (String.eqb_spec (nth c inp "") nm) as [E|]; [|reflexivity]. exfalso. apply Hci.
            assert (nth_error inp c = Some nm) as Hcn by (rewrite <- E; now apply nth_error_nth'). rewrite (index_of_nth inp NDI c nm Hcn) in Ei. congruence. }
        destruct (IH (fun q => if String.eqb q nm then w else F q) _ Eu NDk') as [I1 I2]. split.
        * intro Hincl. rewrite I1 by (intros x Hx; apply Hincl; now right). f_equal. apply map_ext. intro c. simpl. destruct (String.eqb_spec (nth c inp "") nm) as [->|]; [|reflexivity].
          destruct (dget nm ws) eqn:Ed; [|reflexivity]. exfalso. apply Hnin. apply dget_some_iff. eauto.
        * intro Hincl. apply I2. intro H. apply Hincl. intros x [<-|Hx]; [eapply nth_error_In; eauto|now apply H].
      + cbn [fmap bind]. split.
        * intro Hincl. exfalso. apply index_of_none in Ei. apply Ei, Hincl. now left.
        * intros _. clear. induction ws; simpl; auto. }
  destruct (G weights (fun _ => 0) (repeat 0 (List.length inp))) as [A B]; [|assumption|].
  - apply (list_eq_nth _ 0); [now rewrite repeat_length, map_length, seq_length|]. intros c Hc. rewrite repeat_length in Hc. rewrite (nth_map_in _ _ _ _ _ _ 0%nat) by (now rewrite seq_length). now rewrite nth_repeat_lt.
  - split; [|exact B]. intro H. eexists. split; [apply (A H)|]. reflexivity.
Qed.

Lemma map2_seq : forall A B C (f : A -> B -> C) (g : nat -> A) (h : nat -> B) l, map2 f (map g l) (map h l) = map (fun c => f (g c) (h c)) l.
Proof. intros A B C f g h l; induction l; simpl; congruence. Qed.

(** a weight for something that is not an input is rejected by all four functions that use weights *)
Theorem C42_penalty_rejects : forall roots tn tns n st inp con pts fixed o weights x, built roots tn tns n st inp con pts fixed o -> NoDup (keys weights) ->
  ~ incl (keys weights) inp -> inputs_penalty o weights x = Raise ValueError /\ inputs_penalty_grad o weights x = Raise ValueError /\ inputs_penalty_hessian o weights x = Raise ValueError.
Proof.
  intros roots tn tns n st inp con pts fixed o weights x Hb ND Hi. destruct (expand_ok _ _ _ _ _ _ _ _ _ o weights Hb ND) as [_ E]. specialize (E Hi).
  unfold inputs_penalty, inputs_penalty_grad, inputs_penalty_hessian. now rewrite E.
Qed.
Print Assumptions C42_penalty_rejects.

Section Pen.
Variable o : ocp.
Variable inp : list string.
Variable weights : dict R.
Hypothesis K : ocp_ok o.
Hypothesis Hn : (1 <= num_intervals o)%nat.
Hypothesis Hd : (1 <= num_states o)%nat.
Hypothesis G3 : gnames_of (oc_op o) "inputs" = inp.
Let op := oc_op o.
Let ns := num_stages op.
Let ni := List.length inp.
Let W c := weight_of weights (nth c inp "").
Hypothesis HW : expand_weights o weights = Ok (map W (seq 0 ni)).
Let idx := iidx o.

Lemma gsI : group_size op "inputs" = ni.
Proof using G3. unfold group_size, op. now rewrite G3. Qed.
Lemma nsR : INR ns <> 0.
Proof using K Hn Hd G3. apply not_0_INR. pose proof (num_stages_pos op). unfold ns. lia. Qed.

Definition pen (x : list R) : R := rsum (map (fun s => rsum (map (fun c => W c * (vget (idx s c) x * vget (idx s c) x)) (seq 0 ni))) (seq 0 ns)) / INR ns.
Lemma pen_ok : forall x, List.length x = num_dec op -> inputs_penalty o weights x = Ok (pen x).
Proof using K Hn Hd G3 HW.
  intros x L. unfold inputs_penalty. rewrite HW. cbn [bind]. destruct (inputs_comp o K Hn Hd x L) as (d & E & _ & Ei). fold op in E |- *. rewrite E. cbn [bind]. rewrite Ei. cbn [bind]. fold op. rewrite gsI. fold ns.
  f_equal. unfold pen. f_equal. rewrite map_map. f_equal. apply map_ext. intro s. fold idx. rewrite map2_seq. f_equal. apply map_ext. intro c. simpl. ring.
Qed.

(** derivative in variable q *)
Definition dpen (x : list R) (q : nat) : R :=
  rsum (map (fun s => rsum (map (fun c => if Nat.eqb (idx s c) q then 2 * (vget (idx s c) x * W c) / INR ns else 0) (seq 0 ni))) (seq 0 ns)).
Lemma pen_deriv : is_gradient (num_dec op) pen dpen.
Proof using K Hn Hd G3.
  intros x q L Hq. pose proof nsR as NZ.
  apply (pderiv_ext (fun y => / INR ns * rsum (map (fun s => rsum (map (fun c => W c * (vget (idx s c) y * vget (idx s c) y)) (seq 0 ni))) (seq 0 ns)))).
  { intro y. unfold pen. simpl. unfold Rdiv. ring. }
  apply (pderiv_eq _ _ _ (/ INR ns * rsum (map (fun s => rsum (map (fun c => if Nat.eqb (idx s c) q then 2 * (vget (idx s c) x * W c) else 0) (seq 0 ni))) (seq 0 ns)))).
  { unfold dpen. rewrite <- rsum_mult_l. apply rsum_ext. intros s _. rewrite <- rsum_mult_l. apply rsum_ext. intros c _. destruct (Nat.eqb (idx s c) q); [unfold Rdiv|]; ring. }
  apply pderiv_scal.
  apply (pderiv_rsum (fun s y => rsum (map (fun c => W c * (vget (idx s c) y * vget (idx s c) y)) (seq 0 ni)))). intros s _.
  apply (pderiv_rsum (fun c y => W c * (vget (idx s c) y * vget (idx s c) y))). intros c _.
  eapply pderiv_eq; [|apply pderiv_scal; apply pderiv_mult; apply pderiv_coord; lia]. destruct (Nat.eqb (idx s c) q); ring.
Qed.
Lemma dpen_deriv : forall x q k, List.length x = num_dec op -> (k < num_dec op)%nat ->
  pderiv (fun y => dpen y q) x k (rsum (map (fun s => rsum (map (fun c => if (Nat.eqb (idx s c) q && Nat.eqb (idx s c) k)%bool then 2 * W c / INR ns else 0) (seq 0 ni))) (seq 0 ns))).
Proof using K Hn Hd G3.
  intros x q k L Hk. unfold dpen.
  apply (pderiv_rsum (fun s y => rsum (map (fun c => if Nat.eqb (idx s c) q then 2 * (vget (idx s c) y * W c) / INR ns else 0) (seq 0 ni)))). intros s _.
  apply (pderiv_rsum (fun c y => if Nat.eqb (idx s c) q then 2 * (vget (idx s c) y * W c) / INR ns else 0)). intros c _.
  destruct (Nat.eqb (idx s c) q); [|apply pderiv_const]. cbn [andb].
  apply (pderiv_ext (fun y => (2 * W c / INR ns) * vget (idx s c) y)). { intro y. unfold Rdiv. ring. }
  eapply pderiv_eq; [|apply pderiv_scal; apply pderiv_coord; lia]. destruct (Nat.eqb (idx s c) k); ring.
Qed.

(** the gradient the code returns is [dpen] *)
Lemma nodup_inp : NoDup inp.
Proof using K Hn Hd G3.
  rewrite <- G3. pose proof (ok_names _ (oo_dvo o K)) as X. unfold stage_var_names in X. rewrite (oo_sg o K) in X. unfold implicit_inputs in X. simpl in X.
  apply NoDup_app_inv in X. destruct X as (_ & X & _). apply NoDup_app_inv in X. destruct X as (X & _ & _). now apply NoDup_map_inv in X.
Qed.
Lemma dget_mapf : forall (f : field R -> field R) k d, dget k (map (fun kv => (fst kv, f (snd kv))) d) = option_map f (dget k d).
Proof using. intros f k d; induction d as [|[k' v] d IH]; simpl; [reflexivity|]. destruct (String.eqb k k'); [reflexivity|exact IH]. Qed.
Lemma nth_zero : forall (a : list (list R)) s c, nth c (nth s (map (map (fun v => v * 0)) a) []) 0 = 0.
Proof using.
  assert (forall (l : list R) c, nth c (map (fun v => v * 0) l) 0 = 0) as H by (intros l; induction l; intros [|c]; simpl; auto; lra).
  intros a; induction a as [|r a IH]; intros [|s] c; simpl; auto; destruct c; reflexivity.
Qed.

Lemma grad_ok : forall x, List.length x = num_dec op -> exists y, inputs_penalty_grad o weights x = Ok y /\ List.length y = num_dec op /\ forall q, (q < num_dec op)%nat -> vget q y = dpen x q.
Proof using K Hn Hd G3 HW.
  intros x L. unfold inputs_penalty_grad. rewrite HW. cbn [bind]. destruct (inputs_comp o K Hn Hd x L) as (d & E & HK & Ei). fold op in E, HK, Ei |- *. rewrite E. cbn [bind]. rewrite Ei. cbn [bind].
  rewrite gsI. fold ns.
  set (g := map _ (map _ (seq 0 ns))). set (kw := dset "inputs" (FArr g) _).
  assert (g = map (fun s => map (fun c => 2 * (vget (idx s c) x * W c) / INR ns) (seq 0 ni)) (seq 0 ns)) as Eg.
  { unfold g. rewrite map_map. apply map_ext. intro s. fold idx. now rewrite map2_seq. }
  assert (kw_ok op kw) as HKw.
  { destruct HK as [HK1 HK2]. split.
    - intros gr Hgr. unfold kw. destruct (String.eqb_spec gr "inputs") as [->|Hne].
      + exists g. rewrite dget_dset_same. split; [reflexivity|]. rewrite Eg. fold ns. rewrite gsI. split; [now rewrite map_length, seq_length|]. apply Forall_map, Forall_forall. intros. now rewrite map_length, seq_length.
      + rewrite dget_dset_other by congruence. rewrite dget_mapf. destruct (HK1 gr Hgr) as (a & Ea & [S1 S2]). rewrite Ea. simpl. eexists. split; [reflexivity|]. split; [now rewrite map_length|].
        apply Forall_map. eapply Forall_impl; [|exact S2]. intros r Hr. now rewrite map_length.
    - intros nm Hnm. unfold kw. assert (nm <> "inputs") as Hne.
      { intros ->. pose proof (NDG o K Hn Hd) as ND. fold op in ND. apply NoDup_app_inv in ND. destruct ND as (_ & _ & D). apply (D "inputs"); [|assumption]. exact (nth_error_In _ _ (sgI o K Hn Hd)). }
      rewrite dget_dset_other by congruence. rewrite dget_mapf. destruct (HK2 nm Hnm) as [v Ev]. rewrite Ev. simpl. eauto. }
  destruct (unflatten_flatten op kw (NDG o K Hn Hd) (NVS o K Hn Hd) HKw) as (y & d2 & EF & Ly & _). exists y. split; [exact EF|]. split; [exact Ly|].
  intros q Hq. destruct (Nat.lt_ge_cases q (num_all_stage_var op)) as [Hlt|Hge].
  - assert (~ In "global" (sgroups op)) as Hng by (unfold op; rewrite (oo_sg o K); simpl; intuition discriminate).
    destruct (index_surj_stage op q (oo_dvo o K) Hng Hlt) as (gr & nm & s & Hv & Hs & Eidx).
    assert (gr <> "global") as Hgg by (intros ->; apply Hng, Hv). fold ns in Hs.
    destruct (index_of_in nm (gnames_of op gr) (proj2 Hv)) as [c Hc].
    destruct (String.eqb_spec gr "inputs") as [->|Hne].
    + destruct (flat_value o K Hn Hd kw y "inputs" nm s c g HKw EF Hgg Hv Hs Hc) as (i & Ei2 & Vi & _); [unfold kw; now rewrite dget_dset_same|].
      fold op in Ei2. rewrite Eidx in Ei2. injection Ei2 as <-. rewrite Vi, Eg. apply index_of_lt in Hc as Hc'. destruct Hc' as [Hcl Hcn]. unfold op in Hcl, Hcn. rewrite G3 in Hcl. fold ni in Hcl.
      rewrite (nth_map_in _ _ _ _ _ _ 0%nat) by (now rewrite seq_length). rewrite (nth_map_in _ _ _ _ _ _ 0%nat) by (now rewrite seq_length). rewrite !seq_nth by assumption. simpl.
      pose proof (idxI o K Hn Hd s c nm Hs Hcn) as E3. fold op idx in E3. rewrite Eidx in E3. injection E3 as E3.
      unfold dpen. rewrite (rsum_single_in _ s ns Hs).
      * rewrite (rsum_single_in _ c ni Hcl); [now rewrite E3, Nat.eqb_refl|]. intros c' Hc' Hne. destruct (Nat.eqb_spec (idx s c') q) as [Eq|]; [|reflexivity]. exfalso. apply Hne.
        rewrite E3 in Eq. rewrite <- gsI in Hcl, Hc'. destruct (iidx_inj o K Hn Hd s c' s c Hs Hs Hc' Hcl Eq). assumption.
      * intros s' Hs' Hne. apply rsum_zero_seq. intros c' Hc'. destruct (Nat.eqb_spec (idx s' c') q) as [Eq|]; [|reflexivity]. exfalso. apply Hne.
        rewrite E3 in Eq. rewrite <- gsI in Hcl, Hc'. destruct (iidx_inj o K Hn Hd s' c' s c Hs' Hs Hc' Hcl Eq). assumption.
    + destruct HK as [HK1 HK2]. destruct (HK1 gr (proj1 Hv)) as (a & Ea & _).
      destruct (flat_value o K Hn Hd kw y gr nm s c (map (map (fun v => v * 0)) a) HKw EF Hgg Hv Hs Hc) as (i & Ei2 & Vi & _).
      { unfold kw. rewrite dget_dset_other by congruence. rewrite dget_mapf, Ea. reflexivity. }
      fold op in Ei2. rewrite Eidx in Ei2. injection Ei2 as <-. rewrite Vi, nth_zero. symmetry. unfold dpen. apply rsum_zero_seq. intros s' Hs'. apply rsum_zero_seq. intros c' Hc'.
      destruct (Nat.eqb_spec (idx s' c') q) as [Eq|]; [|reflexivity]. exfalso. apply Hne.
      destruct (nth_error (gnames_of op "inputs") c') as [nm'|] eqn:En; [|apply nth_error_None in En; unfold op in En; rewrite G3 in En; fold ni in En; lia].
      pose proof (idxI o K Hn Hd s' c' nm' Hs' En) as E3. fold op idx in E3. rewrite Eq in E3.
      assert (is_var op "inputs" nm') as Hv' by (split; [exact (nth_error_In _ _ (sgI o K Hn Hd))|eapply nth_error_In; eauto]).
      destruct (index_inj op gr nm s "inputs" nm' s' q (oo_dvo o K) Hgg ltac:(discriminate) Hv Hv' Hs Hs' Eidx E3) as (X & _ & _). exact X.
  - destruct (index_global_surj op q 0 (oo_dvo o K) (conj Hge Hq)) as (nm & Hnm & _).
    destruct (oc_fixed o) as [f|] eqn:EFx; [unfold op in Hnm; rewrite (oo_gn o K), EFx in Hnm; destruct Hnm|].
    assert (gnames op = ["mesh_scale"]) as EG by (unfold op; now rewrite (oo_gn o K), EFx).
    destruct HK as [HK1 HK2]. destruct (HK2 "mesh_scale") as [v Ev]; [rewrite EG; now left|].
    destruct (flat_global o K Hn Hd kw y (v * 0) HKw EF EFx) as [F _].
    { unfold kw. rewrite dget_dset_other by discriminate. rewrite dget_mapf, Ev. reflexivity. }
    assert (q = num_all_stage_var op) as -> by (unfold num_dec, num_global_var in Hq; rewrite EG in Hq; simpl in Hq; lia).
    fold op in F. rewrite F. rewrite Rmult_0_r. symmetry. unfold dpen. apply rsum_zero_seq. intros s' Hs'. apply rsum_zero_seq. intros c' Hc'.
    destruct (Nat.eqb_spec (idx s' c') (num_all_stage_var op)) as [Eq|]; [|reflexivity]. exfalso.
    destruct (nth_error (gnames_of op "inputs") c') as [nm'|] eqn:En; [|apply nth_error_None in En; unfold op in En; rewrite G3 in En; fold ni in En; lia].
    assert (is_var op "inputs" nm') as Hv' by (split; [exact (nth_error_In _ _ (sgI o K Hn Hd))|eapply nth_error_In; eauto]).
    destruct (index_at_var op "inputs" nm' s' ltac:(discriminate) Hv' Hs') as (j' & _ & Hj' & E4).
    pose proof (idxI o K Hn Hd s' c' nm' Hs' En) as E3. fold op idx in E3. rewrite E4 in E3. injection E3 as E3. unfold num_all_stage_var in Eq, Hge. rewrite <- E3 in Eq. fold ns in Eq. nia.
Qed.

(** structure and values of the hessian *)
Lemma hess_struct : inputs_penalty_hessian_structure o = Ok (concat (map (fun s => map (idx s) (seq 0 ni)) (seq 0 ns)), concat (map (fun s => map (idx s) (seq 0 ni)) (seq 0 ns))).
Proof using K Hn Hd G3.
  unfold inputs_penalty_hessian_structure. change 0%Z with (Z.of_nat 0).
  rewrite (group_indices_contig (oc_op o) "inputs" 1 0 (oo_dvo o K) (sgI o K Hn Hd)) by (pose proof (num_stages_pos op); unfold op in *; lia). cbn [bind].
  unfold create_offset_structure. fold op. fold ns. assert (Nat.eqb ns 0 = false) as -> by (apply Nat.eqb_neq; unfold ns; pose proof (num_stages_pos op); lia).
  rewrite gsI. rewrite !flat_map_concat_map. 
  assert (forall i, map (fun r => (r + i * num_var_stage op)%nat) (map (fun j => (off_of op 1 + j + 0 * num_var_stage op)%nat) (seq 0 ni)) = map (idx i) (seq 0 ni)) as E.
  { intro i. rewrite map_map. apply map_ext. intro j. unfold idx, iidx. fold op. lia. }
  rewrite (map_ext _ _ E). reflexivity.
Qed.
Lemma hess_vals : forall x, inputs_penalty_hessian o weights x = Ok (concat (map (fun _ => map (fun c => 2 * W c / INR ns) (seq 0 ni)) (seq 0 ns))).
Proof using K Hn Hd G3 HW.
  intro x. unfold inputs_penalty_hessian. rewrite HW. cbn [bind]. fold op. fold ns. f_equal. f_equal. rewrite map_map. generalize (map (fun c => 2 * W c / INR ns) (seq 0 ni)) as l. intro l. generalize 0%nat as a. induction ns as [|m IH]; intro a; simpl; [reflexivity|]. now rewrite <- IH.
Qed.
End Pen.

(** the penalty is the mean over the stages of the weighted squares of the inputs *)
Theorem C42_penalty_value : forall roots tn tns n st inp con pts fixed o weights x, built roots tn tns n st inp con pts fixed o -> NoDup (keys weights) -> incl (keys weights) inp ->
  List.length x = num_dec (oc_op o) ->
  exists v, (forall s c, (s < num_stages (oc_op o))%nat -> (c < List.length inp)%nat -> value_at o x "inputs" (nth c inp "") s (v s c)) /\
    inputs_penalty o weights x = Ok (penalty weights inp (num_stages (oc_op o)) v).
Proof.
  intros roots tn tns n st inp con pts fixed o weights x Hb ND Hi L. destruct (built_ok _ _ _ _ _ _ _ _ _ _ Hb) as (K & Hn & Hd & _ & _ & _ & _ & _ & EF & G3 & _).
  destruct (expand_ok _ _ _ _ _ _ _ _ _ o weights Hb ND) as [E _]. destruct (E Hi) as (w & HW & ->).
  exists (fun s c => vget (iidx o s c) x). split.
  - intros s c Hs Hc. unfold value_at, get_var. rewrite (idxI o K Hn Hd s c (nth c inp "") Hs) by (rewrite G3; now apply nth_error_nth').
    cbn [bind]. unfold array_get. rewrite (nth_error_nth' x 0); [reflexivity|]. rewrite L. apply (iidx_lt o K Hn Hd); [assumption|]. unfold group_size. now rewrite G3.
  - rewrite (pen_ok o inp weights K Hn Hd G3 HW x L). reflexivity.
Qed.
Print Assumptions C42_penalty_value.

(** and the gradient, hessian and structure it reports are its exact derivatives *)
Theorem C42_penalty_derivatives : forall roots tn tns n st inp con pts fixed o weights, built roots tn tns n st inp con pts fixed o -> NoDup (keys weights) -> incl (keys weights) inp ->
  exists f g h rows cols,
    (forall x, List.length x = num_dec (oc_op o) -> inputs_penalty o weights x = Ok (f x) /\ inputs_penalty_grad o weights x = Ok (g x) /\ List.length (g x) = num_dec (oc_op o) /\
       inputs_penalty_hessian o weights x = Ok h) /\ inputs_penalty_hessian_structure o = Ok (rows, cols) /\
    List.length rows = List.length h /\ List.length cols = List.length h /\ Forall (fun r => (r < num_dec (oc_op o))%nat) rows /\ Forall (fun r => (r < num_dec (oc_op o))%nat) cols /\
    is_gradient (num_dec (oc_op o)) f (fun x j => vget j (g x)) /\ is_hessian (num_dec (oc_op o)) f (fun _ => tri rows cols h).
Proof.
  intros roots tn tns n st inp con pts fixed o weights Hb ND Hi. destruct (built_ok _ _ _ _ _ _ _ _ _ _ Hb) as (K & Hn & Hd & _ & _ & _ & _ & _ & EF & G3 & _).
  destruct (expand_ok _ _ _ _ _ _ _ _ _ o weights Hb ND) as [E _]. destruct (E Hi) as (w & HW & ->). clear E.
  exists (pen o inp weights), (fun x => match inputs_penalty_grad o weights x with Ok y => y | Raise _ => [] end),
    (concat (map (fun _ => map (fun c => 2 * weight_of weights (nth c inp "") / INR (num_stages (oc_op o))) (seq 0 (List.length inp))) (seq 0 (num_stages (oc_op o))))).
  eexists; eexists. split; [|split; [apply (hess_struct o inp K Hn Hd G3)|]].
  - intros x L. destruct (grad_ok o inp weights K Hn Hd G3 HW x L) as (y & Ey & Ly & _). rewrite Ey. split; [apply (pen_ok o inp weights K Hn Hd G3 HW x L)|]. split; [reflexivity|]. split; [exact Ly|].
    apply (hess_vals o inp weights K Hn Hd G3 HW x).
  - assert (forall A (F : nat -> nat -> A), List.length (concat (map (fun s => map (F s) (seq 0 (List.length inp))) (seq 0 (num_stages (oc_op o))))) = (num_stages (oc_op o) * List.length inp)%nat) as Lc.
    { intros A F. generalize 0%nat at 2 as a. induction (num_stages (oc_op o)) as [|m IH]; intro a; [reflexivity|]. cbn [seq map concat]. rewrite app_length, map_length, seq_length, IH. reflexivity. }
    split; [now rewrite !Lc|]. split; [now rewrite !Lc|]. split; [|split; [|split]].
    + apply Forall_concat, Forall_map, Forall_forall. intros s Hs. apply Forall_map, Forall_forall. intros c Hc. apply in_seq in Hs, Hc. apply (iidx_lt o K Hn Hd); [lia|]. unfold group_size. rewrite G3. lia.
    + apply Forall_concat, Forall_map, Forall_forall. intros s Hs. apply Forall_map, Forall_forall. intros c Hc. apply in_seq in Hs, Hc. apply (iidx_lt o K Hn Hd); [lia|]. unfold group_size. rewrite G3. lia.
    + intros x j L Hj. destruct (grad_ok o inp weights K Hn Hd G3 HW x L) as (y & Ey & Ly & Hy). rewrite Ey, Hy by assumption. now apply (pen_deriv o inp weights K Hn Hd G3).
    + exists (dpen o inp weights). split; [apply (pen_deriv o inp weights K Hn Hd G3)|]. intros x j k L Hj Hk.
      eapply pderiv_eq; [|apply (dpen_deriv o inp weights K Hn Hd G3 x j k L Hk)]. rewrite tri_cmap by (intros a _; now rewrite !map_length). apply rsum_ext. intros s _. now rewrite tri_comp.
Qed.
Print Assumptions C42_penalty_derivatives.

(** a concrete case: weight 3 on the only input of the example problem, inputs 1 2 2 at the three stages: (3+12+12)/3 = 9 *)
Example C42_nonvacuous : let x := [0;0;1;0;0; 0;0;2;0;0; 0;0;2;0;0] in List.length x = num_dec (oc_op ex_o) /\ NoDup (keys [("u", 3)]) /\ incl (keys [("u", 3)]) ["u"] /\
  inputs_penalty ex_o [("u", 3)] x = Ok 9 /\ inputs_penalty ex_o [("nonsense", 3)] x = Raise ValueError.
Proof.
  split; [reflexivity|]. split; [constructor; [intros []|constructor]|]. split; [intros a H; exact H|]. split; [|reflexivity].
  cbv -[Rplus Rmult Rdiv Rinv IZR]. f_equal. field.
Qed.
