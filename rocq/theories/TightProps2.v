(** More theorems found wanting by mutating the model (seeded/LOG.jsonl): errors. *)
From Verif Require Import Base RBase TreeModel UtilsModel UtilsProofs NlpModel OcpModel OcpSpec OcpProofs CollocModel BoundModel BoundSpec BoundProofs BoundProps.
From Coq Require Import Lia.
Open Scope R_scope.

(** ** C26: what a rejected direct call raises *)
Theorem C26_set_rejects : forall roots tn tns n st inp con pts fixed o g nm stage b s, built roots tn tns n st inp con pts fixed o ->
  let op := oc_op o in has_var op g nm -> (g <> "global" -> match stage with Some z => stage_in_range op z | None => True end) ->
  let one_slot := stage <> None \/ g = "global" in
  match b with
  | BSc l u => set_var_bounds op g nm stage b s = Raise AssertionError <-> eleb l u = false
  | BAr l u =>
      let reversed := exists i, (i < List.length l)%nat /\ eleb (nth i l NegInf) (nth i u PosInf) = false in
      (set_var_bounds op g nm stage b s = Raise ValueError <->
         (one_slot \/ List.length l = num_stages op) /\ (List.length l <> List.length u \/ one_slot /\ ~ reversed /\ List.length l <> 1%nat)) /\
      (set_var_bounds op g nm stage b s = Raise AssertionError <->
         (~ one_slot /\ List.length l <> num_stages op) \/ (List.length l = List.length u /\ reversed))
  end.
Proof.
  intros roots tn tns n st inp con pts fixed o g nm stage b s Hb op HV HS one.
  assert (exists idx, match stage with Some z => fmap (fun i => [i]) (index_at op g nm z) | None => index_all op g nm end = Ok idx) as (idx & E).
  { destruct (proj2 (C26_set_accepts roots tn tns n st inp con pts fixed o g nm stage (BSc NegInf PosInf) s Hb)) as (s' & H); [split; [exact HV|split; [exact HS|reflexivity]]|].
    unfold set_var_bounds in H. fold op in H. destruct (match stage with Some z => fmap (fun i => [i]) (index_at op g nm z) | None => index_all op g nm end); [eauto|discriminate]. }
  assert (let sc := (match stage with Some _ => true | None => false end || String.eqb g "global")%bool in (sc = true /\ one) \/ (sc = false /\ ~ one)) as HO.
  { cbv zeta. unfold one. destruct stage; cbn [orb]; [left; split; [reflexivity|left; discriminate]|]. destruct (String.eqb_spec g "global"); [left; auto|right; split; [reflexivity|intros [A|A]; congruence]]. }
  unfold set_var_bounds. rewrite E. cbn [bind]. cbv zeta in HO. set (sc := (match stage with Some _ => true | None => false end || String.eqb g "global")%bool) in *.
  destruct b as [l u|l u].
  - destruct (eleb l u); split; congruence.
  - cbv zeta. set (rv := exists i, (i < List.length l)%nat /\ eleb (nth i l NegInf) (nth i u PosInf) = false).
    assert (List.length l = List.length u -> (all_le l u = true /\ ~ rv) \/ (all_le l u = false /\ rv)) as HL.
    { intro L. pose proof (all_le_iff l u L) as A. destruct (all_le l u) eqn:AE; [left|right]; (split; [reflexivity|]).
      - intros (i & Hi & F). rewrite (proj1 A eq_refl i Hi) in F. discriminate.
      - unfold rv. clear - AE L. revert u L AE. induction l as [|x l IH]; intros [|y u] L AE; try discriminate. unfold all_le in AE. cbn [combine forallb fst snd] in AE. apply andb_false_iff in AE. destruct AE as [AE|AE].
        + exists 0%nat. cbn. split; [lia|exact AE].
        + destruct (IH u ltac:(cbn in L; lia) AE) as (i & Hi & F). exists (S i). cbn. split; [lia|exact F]. }
    clearbody rv.
    destruct (Nat.eqb_spec (List.length l) (num_stages op)) as [LN|LN]; destruct (Nat.eqb_spec (List.length l) (List.length u)) as [LU|LU]; destruct (Nat.eqb_spec (List.length l) 1) as [L1|L1];
      destruct HO as [[-> O]|[-> O]]; cbn [negb andb]; try (destruct (HL LU) as [[-> V]|[-> V]]; cbn [negb]);
      (split; split; intro H; try discriminate H; try reflexivity; try (exfalso; tauto); try tauto).
Qed.
Print Assumptions C26_set_rejects.

(** ** C22: when a transcription is made, and what is raised otherwise: the two low order schemes have no number of stages to choose, the Gauss-Radau ones need at least two *)
Theorem C22_make_result : forall roots name ns,
  let low := In name ["ForwardEuler"; "Trapezoidal"] in let radau := In name ["LGR"; "LGRIntegral"] in
  ((exists t, make_transcription roots name ns = Ok t) <-> (low /\ ns = None) \/ (radau /\ match ns with None => True | Some m => (2 <= m)%nat end)) /\
  (make_transcription roots name ns = Raise TypeError <-> low /\ ns <> None) /\
  (make_transcription roots name ns = Raise AssertionError <-> radau /\ exists m, ns = Some m /\ (m <= 1)%nat) /\
  (make_transcription roots name ns = Raise RuntimeError <-> ~ low /\ ~ radau).
Proof.
  intros roots name ns low radau. unfold make_transcription.
  assert (forall m, (2 <= m)%nat -> (exists t, lgr roots m = Ok t) /\ exists t, lgr_integral roots m = Ok t) as GE.
  { intros m Hm. unfold lgr_integral, lgr, lgr_collocation_points, get_collocation_points. destruct (Nat.ltb_spec (m - 1) 1) as [A|A]; [lia|]. cbn [fmap bind]. split; eexists; reflexivity. }
  assert (forall m, (m <= 1)%nat -> lgr roots m = Raise AssertionError /\ lgr_integral roots m = Raise AssertionError) as LT.
  { intros m Hm. unfold lgr_integral, lgr, lgr_collocation_points, get_collocation_points. destruct (Nat.ltb_spec (m - 1) 1) as [A|A]; [|lia]. cbn [fmap bind]. split; reflexivity. }
  unfold low, radau. cbn [In]. clear low radau.
  set (low := name = "ForwardEuler" \/ name = "Trapezoidal" \/ False). set (radau := name = "LGR" \/ name = "LGRIntegral" \/ False).
  assert (low -> ~ radau) as X by (unfold low, radau; intros [->|[->|[]]] [E|[E|[]]]; discriminate).
  assert (exists r : result transcription, (if String.eqb name "ForwardEuler" then match ns with None => Ok forward_euler | Some _ => Raise TypeError end
    else if String.eqb name "Trapezoidal" then match ns with None => Ok trapezoidal | Some _ => Raise TypeError end
    else if String.eqb name "LGR" then lgr roots (match ns with None => 3 | Some n => n end)%nat
    else if String.eqb name "LGRIntegral" then lgr_integral roots (match ns with None => 3 | Some n => n end)%nat else Raise RuntimeError) = r /\
    ((low /\ ((ns = None /\ exists t, r = Ok t) \/ (ns <> None /\ r = Raise TypeError))) \/
     (radau /\ ((match ns with None => True | Some m => (2 <= m)%nat end /\ exists t, r = Ok t) \/ ((exists m, ns = Some m /\ (m <= 1)%nat) /\ r = Raise AssertionError))) \/
     (~ low /\ ~ radau /\ r = Raise RuntimeError))) as (r & -> & C).
  { eexists. split; [reflexivity|].
    assert (forall f, (f = lgr roots \/ f = lgr_integral roots) -> (match ns with None => True | Some m => (2 <= m)%nat end /\ exists t, f (match ns with None => 3 | Some n => n end)%nat = Ok t) \/
      ((exists m, ns = Some m /\ (m <= 1)%nat) /\ f (match ns with None => 3 | Some n => n end)%nat = Raise AssertionError)) as RA.
    { intros f Hf. destruct ns as [m|].
      - destruct (Nat.le_gt_cases 2 m) as [Hm|Hm].
        + left. split; [exact Hm|]. destruct (GE m Hm). destruct Hf as [->| ->]; assumption.
        + right. split; [exists m; split; [reflexivity|lia]|]. destruct (LT m ltac:(lia)). destruct Hf as [->| ->]; assumption.
      - left. split; [exact I|]. destruct (GE 3%nat ltac:(lia)). destruct Hf as [->| ->]; assumption. }
    destruct (String.eqb_spec name "ForwardEuler") as [N1|N1]; [left; split; [unfold low; tauto|destruct ns; [right; split; [discriminate|reflexivity]|left; split; [reflexivity|eexists; reflexivity]]]|].
    destruct (String.eqb_spec name "Trapezoidal") as [N2|N2]; [left; split; [unfold low; tauto|destruct ns; [right; split; [discriminate|reflexivity]|left; split; [reflexivity|eexists; reflexivity]]]|].
    destruct (String.eqb_spec name "LGR") as [N3|N3]; [right; left; split; [unfold radau; tauto|apply RA; tauto]|].
    destruct (String.eqb_spec name "LGRIntegral") as [N4|N4]; [right; left; split; [unfold radau; tauto|apply RA; tauto]|].
    right. right. unfold low, radau. split; [tauto|]. split; [tauto|reflexivity]. }
  assert ("ForwardEuler" = name \/ "Trapezoidal" = name \/ False <-> low) as -> by (unfold low; intuition congruence).
  assert ("LGR" = name \/ "LGRIntegral" = name \/ False <-> radau) as -> by (unfold radau; intuition congruence).
  clearbody low radau. clear GE LT.
  assert ((exists m, ns = Some m /\ (m <= 1)%nat) -> ~ match ns with None => True | Some m => (2 <= m)%nat end) as Y by (intros (m & -> & Hm); lia).
  assert (forall t : transcription, Ok t <> Raise TypeError /\ Ok t <> Raise AssertionError /\ Ok t <> Raise RuntimeError) as OK by (intro; repeat split; discriminate).
  assert (forall e, (exists t : transcription, Raise e = Ok t) <-> False) as NO by (intro e; split; [intros (t & E); discriminate E|tauto]).
  destruct C as [(CL & [(C1 & t & ->)|(C1 & ->)])|[(CR & [(C1 & t & ->)|(C1 & ->)])|(C1 & C2 & ->)]].
  - split; [split; [tauto|intro; eexists; reflexivity]|]. repeat split; intros; try discriminate; tauto.
  - rewrite NO. repeat split; intros; try discriminate; tauto.
  - split; [split; [tauto|intro; eexists; reflexivity]|]. repeat split; intros; try discriminate; tauto.
  - rewrite NO. repeat split; intros; try discriminate; tauto.
  - rewrite NO. repeat split; intros; try discriminate; tauto.
Qed.
Print Assumptions C22_make_result.
