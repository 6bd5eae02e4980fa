(** Lemmas for whole problems, part 2: the composite problem that a state stands for. *)
From Verif Require Import Base RBase TreeModel UtilsModel IoModel CollocModel CollocProps MeshModel OcpModel OcpSpec NlpModel NlpProofs NlpProofs2 NlpProps NlpProps2 AlgModel AlgSpec AlgProps ConvModel ConvSpec ConvProps CyclicModel CyclicSpec CyclicProps ObjModel ObjProps OcpProps BoundModel BoundSpec ScaleModel ScaleSpec SolverProofs BuildModel BuildSpec BuildProofs.

(** ** constructors of pieces *)
Lemma make_con_total : forall nin ncon f j h js hs,
  con_wf {| c_nin := nin; c_ncon := ncon; c_f := f; c_j := j; c_h := h; c_jr := fst js; c_jc := snd js; c_hr := fst hs; c_hc := snd hs; c_in := ones nin; c_con := ones ncon; c_js := []; c_hs := [] |} ->
  exists c, make_con nin ncon f j h (Some js) (Some hs) = Ok c /\ con_wf c /\ c_con c = ones ncon /\ c_nin c = nin /\ c_ncon c = ncon /\ c_f c = f /\ c_j c = j /\ c_h c = h /\ c_jr c = fst js /\ c_jc c = snd js /\ c_hr c = fst hs /\ c_hc c = snd hs.
Proof.
  intros nin ncon f j h js hs W. unfold make_con. match type of W with con_wf ?c0 => set (c00 := c0) in * end.
  rewrite (update_jac_ok c00 W) by apply repeat_length. cbn [bind]. rewrite update_hess_ok; [|eapply con_wf_same; eauto|apply repeat_length].
  eexists. split; [reflexivity|]. split; [eapply con_wf_same; eauto|]. repeat split; reflexivity.
Qed.
Lemma make_obj_total : forall nin f g h, (forall x, List.length x = nin -> List.length (g x) = nin) -> (forall x, h x = []) ->
  exists ob, make_obj nin f g h (Some ([], [])) = Ok ob /\ obj_wf nin ob /\ o_f ob = f /\ o_g ob = g /\ o_h ob = h /\ o_hr ob = [] /\ o_hc ob = [] /\ o_nin ob = nin.
Proof.
  intros nin f g h Hg Hh. eexists. split; [reflexivity|]. split; [|repeat split; reflexivity]. constructor; cbn; auto; try constructor. intros x _. now rewrite Hh.
Qed.

(** ** a composite problem of one objective and named pieces *)
Section Assemble.
Variables (n : nat) (ob : bobj) (ob2 : option bobj) (c1 c2 : bcon) (c3 : option bcon).
Hypothesis Wo : obj_wf n ob.
Hypothesis Wo2 : forall q, ob2 = Some q -> obj_wf n q.
Hypothesis W1 : con_arg c1.
Hypothesis W2 : con_arg c2.
Hypothesis W3 : forall c, c3 = Some c -> con_arg c /\ c_nin c = n.
Hypothesis N1 : c_nin c1 = n.
Hypothesis N2 : c_nin c2 = n.
Definition pieces (s k1 k2 : list R) : dict bcon :=
  [("model_algebra", rescaled c1 s k1); ("continuity", rescaled c2 s k2)] ++ match c3 with Some c => [("cyclic", rescaled c s (c_con c))] | None => [] end.
Definition assembled (s k1 k2 : list R) : prob := {| p_n := n; p_cons := pieces s k1 k2; p_objs := ("time", orescaled ob s) :: match ob2 with Some q => [("inputs_penalty", orescaled q s)] | None => [] end; p_triu := None; p_scales := s |}.
Lemma assembled_inv : forall s k1 k2, List.length s = n -> List.length k1 = c_ncon c1 -> List.length k2 = c_ncon c2 -> prob_inv (assembled s k1 k2).
Proof using Wo Wo2 W1 W2 W3 N1 N2.
  intros s k1 k2 Hs H1 H2. constructor; cbn [assembled p_cons p_objs p_scales p_n].
  - unfold pieces. destruct c3; cbn; repeat constructor; cbn; intuition discriminate.
  - destruct ob2; cbn; repeat constructor; cbn; intuition discriminate.
  - exact Hs.
  - assert (forall c k, con_arg c -> c_nin c = n -> List.length k = c_ncon c -> con_reg n s (rescaled c s k)) as R.
    { intros c k [W _] Hn Hk. split; [split; [eapply con_wf_same; eauto|exact Hk]|]. split; [exact Hn|reflexivity]. }
    unfold pieces. apply Forall_app. split; [|destruct c3 as [c|]]; repeat (apply Forall_cons || apply Forall_nil); cbn [snd]; try (apply R; auto).
    all: destruct (W3 c eq_refl) as [A B]; try assumption. exact (proj2 A).
  - apply Forall_cons; [cbn; repeat constructor; apply Wo|]. destruct ob2 as [q|]; [|constructor]. apply Forall_cons; [|constructor]. pose proof (Wo2 q eq_refl) as W. cbn; repeat constructor; apply W.
Qed.
Definition raw_assembly : result prob :=
  bind (add_objective (make_prob n) "time" ob) (fun p0 => bind (match ob2 with None => Ok p0 | Some q => add_objective p0 "inputs_penalty" q end) (fun p1 => bind (add_constraints p1 "model_algebra" c1) (fun p2 => bind (add_constraints p2 "continuity" c2) (fun p3 =>
  match c3 with None => Ok p3 | Some c => add_constraints p3 "cyclic" c end)))).
Lemma raw_assembly_ok : raw_assembly = Ok (assembled (ones n) (c_con c1) (c_con c2)).
Proof using Wo Wo2 W1 W2 W3 N1 N2.
  unfold raw_assembly, assembled, pieces. unfold add_objective. cbn [make_prob p_objs dmem dget p_scales]. rewrite (obj_set_ok n) by (auto; apply repeat_length). cbn [bind].
  assert (forall p name c, p_n p = n -> p_scales p = ones n -> ~ In name (keys (p_cons p)) -> con_arg c -> c_nin c = n -> add_constraints p name c = Ok (NlpModel.set_cons p (p_cons p ++ [(name, rescaled c (ones n) (c_con c))]))) as A.
  { intros p name c Hp Hs Hk [W Hc] Hn. unfold add_constraints. apply dmem_false in Hk. rewrite Hk, Hn, Hp, Nat.eqb_refl, Hs. cbn [negb].
    rewrite set_in_any by (auto; rewrite Hn; apply repeat_length). cbn [bind]. f_equal. f_equal. clear -Hk. revert Hk. generalize (p_cons p) as d. induction d as [|[k v] d IH]; intro H; [reflexivity|].
    unfold dmem in H. cbn [dget dset app] in *. destruct (String.eqb_spec name k) as [->|Hne]; [discriminate|]. f_equal. apply IH. exact H. }
  assert (exists p1, match ob2 with None => Ok {| p_n := n; p_cons := []; p_objs := [("time", orescaled ob (ones n))]; p_triu := None; p_scales := ones n |} | Some q => add_objective {| p_n := n; p_cons := []; p_objs := [("time", orescaled ob (ones n))]; p_triu := None; p_scales := ones n |} "inputs_penalty" q end = Ok p1 /\
    p1 = {| p_n := n; p_cons := []; p_objs := ("time", orescaled ob (ones n)) :: match ob2 with Some q => [("inputs_penalty", orescaled q (ones n))] | None => [] end; p_triu := None; p_scales := ones n |}) as (p1 & E1 & ->).
  { destruct ob2 as [q|]; [|eexists; split; reflexivity]. unfold add_objective. cbn [p_objs dmem dget p_scales]. change (dmem "inputs_penalty" [("time", orescaled ob (ones n))]) with false. cbn iota. rewrite (obj_set_ok n q (ones n) (Wo2 q eq_refl)) by apply repeat_length. cbn [bind]. eexists. split; reflexivity. }
  match goal with |- bind ?X _ = _ => replace X with (Ok {| p_n := n; p_cons := @nil (string * bcon); p_objs := ("time", orescaled ob (ones n)) :: match ob2 with Some q => [("inputs_penalty", orescaled q (ones n))] | None => [] end; p_triu := None; p_scales := ones n |}) by (symmetry; exact E1) end. cbn [bind].
  rewrite A by (auto; cbn; tauto). cbn [bind]. rewrite A by (auto; cbn; intuition discriminate). cbn [bind]. destruct c3 as [c|].
  - destruct (W3 c eq_refl) as [Wa Na]. rewrite A by (auto; cbn; intuition discriminate). reflexivity.
  - reflexivity.
Qed.
Lemma scaled_ok : forall s k1 k2, List.length s = n -> List.length k1 = c_ncon c1 -> List.length k2 = c_ncon c2 ->
  bind (set_dec_var_scales (assembled (ones n) (c_con c1) (c_con c2)) s) (fun p => bind (scale_con "model_algebra" k1 p) (fun p => bind (scale_con "continuity" k2 p) (fun p =>
    Ok {| p_n := p_n p; p_cons := p_cons p; p_objs := p_objs p; p_triu := p_triu p; p_scales := s |}))) = Ok (assembled s k1 k2).
Proof using Wo Wo2 W1 W2 W3 N1 N2.
  intros s k1 k2 Hs H1 H2. rewrite set_scales_ok; [|apply assembled_inv; [apply repeat_length|apply W1|apply W2]|exact Hs]. cbn [bind].
  unfold scale_con at 1. unfold pieces, assembled. cbn [p_cons p_n p_objs p_triu map fst snd app lookup_err dget]. unfold pieces. unfold lookup_err. cbn [app map dget fst snd]. 
  change (String.eqb "model_algebra" "model_algebra") with true. cbn [bind].
  change (rescaled (rescaled c1 (ones n) (c_con c1)) s (c_con (rescaled c1 (ones n) (c_con c1)))) with (rescaled c1 s (c_con c1)).
  rewrite (set_con_ok c1) by (try apply W1; auto; rewrite ?N1; assumption). cbn [bind].
  unfold scale_con, lookup_err, NlpModel.set_cons. cbn [p_cons p_n p_objs p_triu p_scales dset].
  change (String.eqb "model_algebra" "model_algebra") with true. cbn [dget]. change (String.eqb "continuity" "model_algebra") with false. change (String.eqb "continuity" "continuity") with true. cbn [bind].
  change (rescaled (rescaled c2 (ones n) (c_con c2)) s (c_con (rescaled c2 (ones n) (c_con c2)))) with (rescaled c2 s (c_con c2)).
  rewrite (set_con_ok c2) by (try apply W2; auto; rewrite ?N2; assumption). cbn [bind p_cons p_n p_objs p_triu p_scales dset].
  change (String.eqb "continuity" "model_algebra") with false. change (String.eqb "continuity" "continuity") with true. f_equal. f_equal.
  - f_equal. f_equal. destruct c3; reflexivity.
  - destruct ob2; reflexivity.
Qed.
End Assemble.
