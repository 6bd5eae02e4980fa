(** The stages of a trajectory and the windows of its vector. *)
From Verif Require Import Base RBase TreeModel UtilsModel UtilsProofs UtilsProofs2 UtilsProps IoModel CollocModel CollocProofs CollocProps MeshModel MeshProofs MeshProps OcpModel OcpProofs OcpSpec OcpProps NlpModel NlpSpec NlpProofs NlpProofs2 NlpProps NlpProps2
  AlgModel AlgSpec AlgProofs AlgProps ConvModel ConvSpec ConvProps CyclicModel CyclicSpec CyclicProps ObjModel ObjProps BoundModel BoundSpec BoundProofs BoundProps ScaleModel ScaleSpec ScaleProofs ScaleProps SolverProofs SolverProps BuildModel BuildSpec BuildProofs BuildProofs2 BuildProofs3 BuildProofs4 BuildProofs5 JaxProofs LocSpec LocProofs LocProofs2.

Lemma roomy_firstn : forall n N D, (n <= N)%nat -> (forall x, D (firstn n x) <-> D x) -> roomy n D -> roomy N D.
Proof.
  intros n N D L E RM x k Lx HD Hk. destruct (Nat.lt_ge_cases k n) as [A|A].
  - destruct (RM (firstn n x) k ltac:(rewrite firstn_length; lia) ltac:(now apply E) A) as (e & He & HE). exists e. split; [assumption|]. intros t Ht. apply E. rewrite firstn_upd_in by assumption. apply HE. now rewrite JaxProofs.vget_firstn.
  - exists 1. split; [lra|]. intros t _. apply E. rewrite firstn_upd_out by assumption. now apply E.
Qed.

Section Sem.
Variables (roots : list R -> list R) (tn : string) (tns : option nat) (n : nat) (pts : option (list R)) (fixed : option R) (o : ocp) (fm pl : list R).
Context {P : Type}.
Variables (M : smodel P) (con : list string).
Let st := m_states M.
Let inp := m_inputs M.
Hypothesis B : OcpSpec.built roots tn tns n st inp con pts fixed o.
Hypothesis MO : model_ok M con.
Let nm := names_of M con.
Let op := oc_op o.
Let t := oc_tr o.
Hypothesis Lfm : List.length fm = num_stages op.
Hypothesis NS : num_stages op = (n * (t_stages t - 1) + 1)%nat.
Hypothesis HM : forall i j, (i < n)%nat -> (j < t_stages t)%nat -> nth (stage_of t i j) fm 0 = nth i pl 0 + unit_point t j * interval_length pl i.
Variable dom : R -> dict R -> dict R -> Prop.
Let mpk (k : nat) (x : list R) : R := vget k fm * or_zero (get_mesh_scale o x).

Lemma within_firstn : forall m w, within M dom m (firstn (List.length st + List.length inp) w) <-> within M dom m w.
Proof using.
  clear. intros m w. unfold within. fold st inp. rewrite firstn_firstn. replace (Nat.min (List.length st) (List.length st + List.length inp)) with (List.length st) by lia. rewrite skipn_firstn_comm, firstn_firstn.
  replace (Nat.min (List.length inp) (List.length st + List.length inp - List.length st)) with (List.length inp) by lia. reflexivity.
Qed.
Lemma within_roomy : open_domain M dom -> forall m, roomy (num_implicit_var nm) (within M dom m).
Proof using MO roots pl.
  clear Lfm NS HM mpk B. intros OD m. apply (roomy_firstn (List.length st + List.length inp)); [|intro x; apply within_firstn|exact (OD m)]. pose proof (nvar nm (mo_names _ _ MO)) as X. change (nm "states") with st in X. change (nm "inputs") with inp in X. lia.
Qed.
Lemma window_holds : forall x k g, List.length x = num_dec op -> (k < num_stages op)%nat -> In g flat_groups -> holds o x g (nm g) k (combine (nm g) (part nm g (stage_window op k x))).
Proof using B MO.
  clear Lfm NS HM mpk. intros x k g Lx Hk Hg. assert (List.length (stage_window op k x) = num_implicit_var nm) as WL by (unfold nm; rewrite <- (nvs_eq _ _ _ _ _ _ _ _ _ B); fold op; apply win_len; assumption).
  destruct (part_dict nm (mo_names _ _ MO) (stage_window op k x) g WL Hg) as [K D]. split; [exact K|]. intros q v Hv. apply D in Hv. destruct Hv as [Hq Hv]. apply (window_value _ _ _ _ _ _ _ M con B MO) in Hv; [apply Hv|assumption|assumption|assumption].
Qed.
Lemma stays_iff : forall x, List.length x = num_dec op -> (stays_in o st inp t n pl fixed dom x <-> forall k, (k < num_stages op)%nat -> within M dom (mpk k x) (stage_window op k x)).
Proof using B MO Lfm NS HM.
  intros x Lx. destruct (the_length _ _ _ _ _ _ _ M con B x Lx) as (L & HLn & EL).
  assert (forall i j, (i < n)%nat -> (j < t_stages t)%nat -> mpk (stage_of t i j) x = (nth i pl 0 + unit_point t j * interval_length pl i) * L) as EM.
  { intros i j Hi Hj. unfold mpk, vget. rewrite HM by assumption. now rewrite EL. }
  assert (forall k, (k < num_stages op)%nat -> holds o x "states" st k (combine st (firstn (List.length st) (stage_window op k x))) /\ holds o x "inputs" inp k (combine inp (firstn (List.length inp) (skipn (List.length st) (stage_window op k x))))) as HW.
  { intros k Hk. split; [exact (window_holds x k "states" Lx Hk ltac:(cbn; tauto))|exact (window_holds x k "inputs" Lx Hk ltac:(cbn; tauto))]. }
  assert (forall k g names d d', holds o x g names k d -> holds o x g names k d' -> NoDup names -> d = d') as HU.
  { intros k g names d d' [U1 U2] [V1 V2] ND. apply dict_eq; [congruence|now rewrite U1|]. intros q a b Ha Hb. eapply val_fun; [apply U2|apply V2]; eassumption. }
  destruct (mo_names _ _ MO) as (_ & ND & _).
  split.
  - intros H k Hk. destruct (stage_cover _ _ _ _ _ _ _ M con B NS k Hk) as (i & j & Hi & Hj & Ek). change (oc_tr o) with t in Hj, Ek. subst k. destruct (HW _ Hk) as [W1 W2]. destruct (H i j Hi Hj) as (L' & ds & di & H0 & H1 & H2 & H3).
    assert (L' = L) as -> by (eapply length_fun; eassumption). unfold within. fold t. rewrite (EM i j Hi Hj). fold st inp.
    rewrite <- (HU _ _ _ _ _ H1 W1 (ND "states" ltac:(cbn; tauto))), <- (HU _ _ _ _ _ H2 W2 (ND "inputs" ltac:(cbn; tauto))). exact H3.
  - intros H i j Hi Hj. pose proof (stage_lt _ _ _ _ _ _ _ M con B NS i j Hi Hj) as Hk. destruct (HW _ Hk) as [W1 W2]. specialize (H _ Hk). exists L. eexists. eexists. split; [exact HLn|]. split; [exact W1|]. split; [exact W2|]. fold t in H. rewrite (EM i j Hi Hj) in H. exact H.
Qed.
End Sem.
