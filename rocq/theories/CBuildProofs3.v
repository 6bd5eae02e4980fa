(** Lemmas for condensed problems, part 3: the composite problem. *)
From Verif Require Import Base RBase TreeModel UtilsModel UtilsProofs UtilsProofs2 IoModel CollocModel CollocProofs CollocProps MeshModel MeshProofs MeshProps OcpModel OcpProofs OcpProofs2 OcpProofs3 OcpSpec OcpProps NlpModel NlpSpec NlpProofs NlpProofs2 NlpProps NlpProps2
  AlgModel AlgSpec AlgProofs AlgProps ConvModel ConvSpec ConvProps CyclicModel ObjModel BoundModel BoundSpec BoundProofs ScaleModel ScaleSpec ScaleProofs ScaleProps SolverProofs BuildModel BuildSpec BuildProofs BuildProofs2 BuildProofs3 BuildProofs4 BuildProofs5 BuildProofs6 CondModel CondSpec CondProofs CondProofs2 CondProofs3 CondProofs4 CondProps CondProps2 CBuildModel CBuildSpec CBuildProofs CBuildProofs2.

Lemma raw_ext : forall P (M : smodel P) a b, a_o a = a_o b -> a_con a = a_con b -> a_pen a = a_pen b -> a_amesh a = a_amesh b -> a_p a = a_p b -> a_cyc a = a_cyc b -> raw_problem M a = raw_problem M b.
Proof. intros P M [] [] H1 H2 H3 H4 H5 H6. cbn in *. subst. reflexivity. Qed.

Section CAssemble.
Variables (n : nat) (ob : bobj) (ob2 : option bobj) (cc : bcon) (c3 : option bcon).
Hypothesis Wo : obj_wf n ob.
Hypothesis Wo2 : forall q, ob2 = Some q -> obj_wf n q.
Hypothesis W1 : con_arg cc.
Hypothesis W3 : forall c, c3 = Some c -> con_arg c /\ c_nin c = n.
Hypothesis N1 : c_nin cc = n.
Definition cpieces (s k1 : list R) : dict bcon :=
  match c3 with Some c => [("cyclic", rescaled c s (c_con c)); ("model_algebra", rescaled cc s k1)] | None => [("model_algebra", rescaled cc s k1)] end.
Definition cassembled (s k1 : list R) : prob := {| p_n := n; p_cons := cpieces s k1; p_objs := ("time", orescaled ob s) :: match ob2 with Some q => [("inputs_penalty", orescaled q s)] | None => [] end; p_triu := None; p_scales := s |}.
Lemma cassembled_inv : forall s k1, List.length s = n -> List.length k1 = c_ncon cc -> prob_inv (cassembled s k1).
Proof using Wo Wo2 W1 W3 N1.
  intros s k1 Hs H1. constructor; cbn [cassembled p_cons p_objs p_scales p_n].
  - unfold cpieces. destruct c3; cbn; repeat constructor; cbn; intuition discriminate.
  - destruct ob2; cbn; repeat constructor; cbn; intuition discriminate.
  - exact Hs.
  - assert (forall c k, con_arg c -> c_nin c = n -> List.length k = c_ncon c -> con_reg n s (rescaled c s k)) as Q.
    { intros c k [W _] Hn Hk. split; [split; [eapply con_wf_same; eauto|exact Hk]|]. split; [exact Hn|reflexivity]. }
    unfold cpieces. destruct c3 as [c|]; repeat (apply Forall_cons || apply Forall_nil); cbn [snd]; try (apply Q; auto).
    all: destruct (W3 c eq_refl) as [A B]; try assumption. exact (proj2 A).
  - apply Forall_cons; [cbn; repeat constructor; apply Wo|]. destruct ob2 as [q|]; [|constructor]. apply Forall_cons; [|constructor]. pose proof (Wo2 q eq_refl) as W. cbn; repeat constructor; apply W.
Qed.
Lemma cscaled_ok : forall s k1, List.length s = n -> List.length k1 = c_ncon cc ->
  bind (set_dec_var_scales (cassembled (ones n) (c_con cc)) s) (fun p => bind (scale_con "model_algebra" k1 p) (fun p =>
    Ok {| p_n := p_n p; p_cons := p_cons p; p_objs := p_objs p; p_triu := p_triu p; p_scales := s |})) = Ok (cassembled s k1).
Proof using Wo Wo2 W1 W3 N1.
  intros s k1 Hs H1. rewrite NlpProofs2.set_scales_ok; [|apply cassembled_inv; [apply repeat_length|apply W1]|exact Hs]. cbn [bind].
  unfold scale_con, cpieces, cassembled. cbn [p_cons p_n p_objs p_triu]. unfold cpieces. unfold lookup_err.
  assert (set_con_scales (rescaled cc s (c_con cc)) k1 = Ok (rescaled cc s k1)) as E by (apply set_con_ok; try apply W1; auto; rewrite ?N1; assumption).
  destruct c3 as [c|]; cbn [map fst snd dget bind].
  - change (String.eqb "model_algebra" "cyclic") with false. change (String.eqb "model_algebra" "model_algebra") with true. cbn [bind].
    change (rescaled (rescaled cc (ones n) (c_con cc)) s (c_con (rescaled cc (ones n) (c_con cc)))) with (rescaled cc s (c_con cc)). rewrite E. cbn [bind NlpModel.set_cons p_cons p_n p_objs p_triu dset].
    change (String.eqb "model_algebra" "cyclic") with false. change (String.eqb "model_algebra" "model_algebra") with true. f_equal. f_equal. destruct ob2; reflexivity.
  - change (String.eqb "model_algebra" "model_algebra") with true. cbn [bind].
    change (rescaled (rescaled cc (ones n) (c_con cc)) s (c_con (rescaled cc (ones n) (c_con cc)))) with (rescaled cc s (c_con cc)). rewrite E. cbn [bind NlpModel.set_cons p_cons p_n p_objs p_triu dset].
    change (String.eqb "model_algebra" "model_algebra") with true. f_equal. f_equal. destruct ob2; reflexivity.
Qed.
Lemma condense_ok : forall P (M : smodel P) k c1 c2, c1 = rescaled c1 (ones n) (c_con c1) -> condensed_con M k c1 = Ok cc ->
  condense M k (assembled n ob ob2 c1 c2 c3 (ones n) (c_con c1) (c_con c2)) = Ok (cassembled (ones n) (c_con cc)).
Proof using W1 N1.
  clear Wo Wo2 W3. intros P M k c1 c2 U E. unfold condense, assembled, pieces, cassembled, cpieces, lookup_err. cbn [p_cons app dget]. change (String.eqb "model_algebra" "model_algebra") with true. change (String.eqb "continuity" "model_algebra") with false. change (String.eqb "continuity" "continuity") with true. cbn [bind].
  unfold delete_constraints at 1, dmem. cbn [p_cons dget]. change (String.eqb "model_algebra" "model_algebra") with true. cbn [bind].
  rewrite <- U, E. cbn [NlpModel.set_cons p_cons p_n p_objs p_triu p_scales ddel]. change (String.eqb "model_algebra" "model_algebra") with true. 
  unfold delete_constraints, dmem. destruct c3 as [c|].
  - cbn.  unfold add_constraints, dmem. cbn. rewrite N1, Nat.eqb_refl. cbn [negb]. rewrite set_in_any; [|apply W1|apply W1|rewrite N1; apply repeat_length]. reflexivity.
  - cbn.  unfold add_constraints, dmem. cbn. rewrite N1, Nat.eqb_refl. cbn [negb]. rewrite set_in_any; [|apply W1|apply W1|rewrite N1; apply repeat_length]. reflexivity.
Qed.
End CAssemble.

(** ** the scales of the condensed constraints *)
Section CScales.
Variables (roots : list R -> list R) (tn : string) (tns : option nat) (n : nat) (pts : option (list R)) (fixed : option R) (o : ocp).
Context {P : Type}.
Variables (M : smodel P) (con : list string).
Hypothesis B : OcpSpec.built roots tn tns n (m_states M) (m_inputs M) con pts fixed o.
Hypothesis ER : oc_nres o = List.length (m_residuals M).
Variable scs : list scale_config.
Hypothesis HS : snd (set_scales o true (init_scales o) scs) = Ok tt.
Let s' := fst (set_scales o true (init_scales o) scs).
Let nimp := num_implicit_res (names_of M con).
Lemma nimp_eq : nimp = (List.length (m_states M) + (List.length con + oc_nres o))%nat.
Proof using ER. unfold nimp, num_implicit_res. rewrite ER. change (names_of M con "states") with (m_states M). change (names_of M con "con_outputs") with con. change (names_of M con "residuals") with (m_residuals M). lia. Qed.
Lemma ccond_eq : num_condensed o nimp = (num_continuity_cons o + num_stages (oc_op o) * (List.length con + oc_nres o))%nat.
Proof using B ER.
  pose proof (built_ok _ _ _ _ _ _ _ _ _ _ B) as (K & Hn & Hd & En & Ed & _). unfold num_condensed, num_continuity_cons. rewrite (tr_ncon _ (oo_tr o K)), <- (oo_m o K), nimp_eq, Ed.
  replace (List.length (m_states M) + (List.length con + oc_nres o) - List.length (m_states M))%nat with (List.length con + oc_nres o)%nat by lia. f_equal. lia.
Qed.
Lemma calg_len : List.length (s_alg s') = num_condensed o nimp.
Proof using B ER HS. rewrite ccond_eq. exact (proj1 (C27_condensed _ _ _ _ _ _ _ _ _ _ [] scs B HS)). Qed.
Lemma calg_pos : Forall (fun c => 0 < sc_v c) scs -> Forall (fun v => v <> 0) (s_alg s').
Proof using B ER HS.
  intro HP. pose proof calg_len as L'. rewrite ccond_eq in L'. destruct (C27_condensed _ _ _ _ _ _ _ _ _ _ [] scs B HS) as (_ & N1 & N2). fold (srun o true []) in s'. change (srun o true []) with (init_scales o) in N1, N2. fold s' in N1, N2.
  apply Forall_forall. intros v Hv. apply In_nth_error in Hv. destruct Hv as (q & Hq). assert (q < List.length (s_alg s'))%nat as Hql by (apply nth_error_Some; congruence). rewrite L' in Hql.
  pose proof (built_ok _ _ _ _ _ _ _ _ _ _ B) as (K & _ & _ & En & Ed & _). assert (num_continuity_cons o = n * ((spi o - 1) * List.length (m_states M)))%nat as ENC. { unfold num_continuity_cons. rewrite (tr_ncon _ (oo_tr o K)), En, Ed. unfold spi. lia. }
  assert (2 <= spi o)%nat as H2 by (apply (tr_two _ (oo_tr o K))).
  destruct (Nat.lt_ge_cases q (num_continuity_cons o)) as [C|C].
  - rewrite ENC in C. set (m := (spi o - 1)%nat) in *. set (ns := List.length (m_states M)) in *. assert (1 <= ns)%nat as Hns by (unfold ns; pose proof (b_states _ _ _ _ _ _ _ _ _ _ B); destruct (m_states M); [congruence|cbn; lia]). assert (1 <= m)%nat as Hm by (unfold m; lia).
    set (i := (q / (m * ns))%nat). set (r := (q mod (m * ns))%nat). assert (m * ns <> 0)%nat as NZ by nia. assert (q = i * (m * ns) + r)%nat as Eq by (unfold i, r; rewrite (Nat.mul_comm (q / _)); apply Nat.div_mod; assumption).
    assert (r < m * ns)%nat as Hr by (apply Nat.mod_upper_bound; assumption). assert (i < n)%nat as Hi by (apply Nat.div_lt_upper_bound; nia).
    assert (r = r / ns * ns + r mod ns)%nat as Er by (rewrite (Nat.mul_comm (r / ns)); apply Nat.div_mod; lia). assert (r / ns < m)%nat as Hk by (apply Nat.div_lt_upper_bound; nia). assert (r mod ns < ns)%nat as Hc by (apply Nat.mod_upper_bound; lia).
    destruct (nth_error (m_states M) (r mod ns)) as [w|] eqn:Ev; [|apply nth_error_None in Ev; fold ns in Ev; lia].
    specialize (N1 i (r / ns)%nat (r mod ns)%nat w Hi Hk Ev). rewrite <- Er, <- Eq, Hq in N1. injection N1 as ->. pose proof (scale_pos scs HP "states" w). lra.
  - set (nr := (List.length con + oc_nres o)%nat) in *. set (e := (q - num_continuity_cons o)%nat). assert (e < num_stages (oc_op o) * nr)%nat as He by (unfold e; lia). assert (nr <> 0)%nat as NZ by nia.
    assert (e = e / nr * nr + e mod nr)%nat as Eq by (rewrite (Nat.mul_comm (e / nr)); apply Nat.div_mod; assumption). assert (e mod nr < nr)%nat as Hc by (apply Nat.mod_upper_bound; lia). assert (e / nr < num_stages (oc_op o))%nat as Ht by (apply Nat.div_lt_upper_bound; nia).
    destruct (Nat.lt_ge_cases (e mod nr) (List.length con)) as [C2|C2].
    + destruct (nth_error con (e mod nr)) as [z|] eqn:Ez; [|apply nth_error_None in Ez; lia]. destruct (N2 (e / nr)%nat (e mod nr)%nat Ht) as (N3 & _). specialize (N3 z Ez). rewrite <- Eq in N3. replace (num_continuity_cons o + e)%nat with q in N3 by (unfold e; lia). rewrite Hq in N3. injection N3 as ->. pose proof (scale_pos scs HP "con_outputs" z). lra.
    + destruct (N2 (e / nr)%nat (e mod nr - List.length con)%nat Ht) as (_ & N3). specialize (N3 ltac:(unfold nr in Hc at 2; lia)). replace (num_continuity_cons o + (e / nr * nr + (List.length con + (e mod nr - List.length con))))%nat with q in N3 by (unfold e in *; lia). rewrite Hq in N3. injection N3 as ->. lra.
Qed.
End CScales.
