(** Lemmas for whole problems, part 4: the model algebra piece and the values of variables. *)
From Verif Require Import Base RBase TreeModel UtilsModel UtilsProofs UtilsProofs2 IoModel CollocModel CollocProofs CollocProps MeshModel MeshProofs MeshProps OcpModel OcpProofs OcpSpec OcpProps NlpModel NlpProofs NlpProofs2 NlpProps NlpProps2
  AlgModel AlgSpec AlgProofs AlgProps ConvModel ConvSpec ConvProps CyclicModel CyclicSpec CyclicProps ObjModel ObjProps BoundModel BoundSpec BoundProofs BoundProps ScaleModel ScaleSpec ScaleProofs ScaleProps SolverProofs SolverProps BuildModel BuildSpec BuildProofs BuildProofs2 BuildProofs3.

Section Mesh.
Variables (roots : list R -> list R) (tn : string) (tns : option nat) (n : nat) (st inp con : list string) (pts : option (list R)) (fixed : option R) (o : ocp) (fm : list R).
Hypothesis B : OcpSpec.built roots tn tns n st inp con pts fixed o.
Hypothesis EM : flat_mesh (oc_mesh o) = Ok fm.
Lemma mesh_facts : exists p, points_used n pts p /\ List.length fm = num_stages (oc_op o) /\ num_stages (oc_op o) = (n * (t_stages (oc_tr o) - 1) + 1)%nat /\
  (forall i, (i < n)%nat -> norm_len o i = interval_length p i) /\
  forall i j, (i < n)%nat -> (j < t_stages (oc_tr o))%nat -> nth (stage_of (oc_tr o) i j) fm 0 = nth i p 0 + unit_point (oc_tr o) j * interval_length p i.
Proof using B EM.
  pose proof (built_ok _ _ _ _ _ _ _ _ _ _ B) as (K & Hn1 & _ & En & _ & _ & _ & Em & _ & _ & _ & Et). destruct B as [BO (out & res & BM) Hn _].
  pose proof (make_ocp_ok _ _ _ _ _ _ _ _ _ _ _ _ BO BM) as (_ & _ & _ & _ & _ & _ & _ & _ & MM).
  assert (set_normalized_mesh n (oc_tr o) [] pts = (oc_mesh o, Ok tt)) as E by (unfold set_normalized_mesh; rewrite MM; reflexivity).
  destruct (mesh_points _ _ _ _ _ E) as (p & Hu & Lp & Hp & Eq). pose proof (oo_tr o K) as Ht.
  destruct (flat_ok n (oc_tr o) p Hn Ht Lp Hp) as (fm' & Ef & Lf & Hf). rewrite <- Eq, EM in Ef. injection Ef as <-.
  exists p. assert (num_stages (oc_op o) = (n * (t_stages (oc_tr o) - 1) + 1)%nat) as NS. { unfold num_stages. unfold num_intervals in En. rewrite En, Em. reflexivity. }
  split; [assumption|]. split; [congruence|]. split; [assumption|]. split.
  - intros i Hi. unfold norm_len, interval_length. rewrite Eq, (lengths_ok n (oc_tr o) p Hn Ht Lp). rewrite (nth_map_in _ _ _ _ _ _ 0%nat) by (now rewrite seq_length). rewrite seq_nth by assumption. reflexivity.
  - intros i j Hi Hj. unfold stage_of. rewrite (Hf i j Hi Hj), Nat.add_1_r. unfold rel, is_lgr, unit_point, interval_length. destruct (t_points (oc_tr o)); reflexivity.
Qed.
End Mesh.

Section Alg.
Variables (roots : list R -> list R) (tn : string) (tns : option nat) (n : nat) (pts : option (list R)) (fixed : option R) (o : ocp) (fm : list R).
Context {P : Type}.
Variables (M : smodel P) (con : list string).
Hypothesis B : OcpSpec.built roots tn tns n (m_states M) (m_inputs M) con pts fixed o.
Hypothesis MO : model_ok M con.
Hypothesis Lfm : List.length fm = num_stages (oc_op o).
Let nm := names_of M con.
Let op := oc_op o.

Lemma group_names : forall g, In g flat_groups -> gnames_of op g = nm g.
Proof using B.
  pose proof (built_ok _ _ _ _ _ _ _ _ _ _ B) as (_ & _ & _ & _ & _ & G1 & G2 & _ & _ & G3 & G4 & _).
  intros g [<-|[<-|[<-|[<-|[]]]]]; unfold op; rewrite ?G1, ?G2, ?G3, ?G4; reflexivity.
Qed.
Lemma nvs_eq : num_var_stage op = num_implicit_var nm.
Proof using B.
  pose proof (built_ok _ _ _ _ _ _ _ _ _ _ B) as (K & _ & _ & _ & _ & G1 & G2 & _ & _ & G3 & G4 & _).
  unfold num_var_stage, group_sizes. unfold op. rewrite (oo_sg o K). cbn [implicit_inputs map nsum]. unfold group_size. rewrite G1, G2, G3, G4.
  unfold num_implicit_var, flat_groups. cbn [flat_map]. rewrite !app_length. reflexivity.
Qed.
Lemma nvs_pos : (0 < num_var_stage op)%nat.
Proof using B.
  clear Lfm. rewrite nvs_eq. unfold num_implicit_var. cbn [flat_groups flat_map]. rewrite app_length. change (nm "states") with (m_states M). pose proof (b_states _ _ _ _ _ _ _ _ _ _ B). destruct (m_states M); [congruence|cbn; lia].
Qed.
Lemma shapes : unit_shapes (unit_problem M con).
Proof using MO.
  destruct MO as [H1 _ H3 H4 H5 (J1 & J2 & J3) (S1 & S2 & S3)]. unfold unit_shapes. cbn [unit_problem u_f u_j u_h u_nin u_ncon u_js u_hs]. repeat (split; auto).
  intros x m p Hx. destruct (C34_residual _ _ m x H1 (H3 p m) Hx) as (ds & di & sd & out & res & _ & _ & _ & -> & L & _). exact L.
Qed.
Lemma algebra_piece : forall scale p, exists c, make_conv (unit_problem M con) op fm scale p = Ok c /\ con_arg c /\ c_nin c = num_dec op /\
  c_ncon c = (num_stages op * num_implicit_res nm)%nat /\ c_con c = ones (num_stages op * num_implicit_res nm) /\
  c_f c = (fun x => ok_or_nil (conv_constraints (unit_problem M con) op fm scale p x)).
Proof using B MO Lfm.
  intros scale p. destruct (conv_wf _ (unit_problem M con) op fm scale p) as (js & hs & c & E1 & E2 & W & _ & _ & _ & _ & N1 & N2 & F & _); [symmetry; apply nvs_eq|apply nvs_pos|assumption|apply shapes|].
  assert (c_con c = ones (num_stages op * num_implicit_res nm)) as Ec.
  { unfold make_conv in E2. rewrite E1 in E2. cbn [bind] in E2. unfold make_con in E2. apply bind_ok in E2. destruct E2 as (c1 & X1 & X2). unfold update_hess_scales in X2. apply bind_ok in X2. destruct X2 as (? & _ & X2). apply bind_ok in X2. destruct X2 as (? & _ & X2). injection X2 as <-. cbn. 
    unfold update_jac_scales in X1. apply bind_ok in X1. destruct X1 as (? & _ & X1). apply bind_ok in X1. destruct X1 as (? & _ & X1). injection X1 as <-. reflexivity. }
  exists c. split; [exact E2|]. split; [split; [exact W|rewrite Ec, N2; apply repeat_length]|]. split; [exact N1|]. split; [exact N2|]. split; [exact Ec|exact F].
Qed.

(** a variable of a stage, in the window of the stage and in the whole vector *)
Lemma window_value : forall x k g v nmv, List.length x = num_dec op -> (k < num_stages op)%nat -> In g flat_groups ->
  value_of nm (stage_window op k x) g nmv v <-> In nmv (nm g) /\ value_at o x g nmv k v.
Proof using B MO.
  clear Lfm. intros x k g v nmv Lx Hk Hg. pose proof (mo_names _ _ MO) as HN. fold nm in HN.
  pose proof (built_ok _ _ _ _ _ _ _ _ _ _ B) as (K & _ & _ & _ & _ & G1 & G2 & _ & _ & G3 & G4 & _).
  assert (forall c, nth_error (nm g) c = Some nmv -> index_at op g nmv (Z.of_nat k) = Ok (c + off nm g + k * num_var_stage op)%nat /\ (c + off nm g < num_var_stage op)%nat) as IX.
  { intros c Hc. assert (c < List.length (nm g))%nat as Hcl by (apply nth_error_Some; congruence).
    unfold index_at. destruct (String.eqb_spec g "global") as [->|_]; [cbn in Hg; intuition discriminate|]. rewrite norm_stage_nat by assumption. cbn [bind]. unfold enum_get.
    assert (exists kk, nth_error (sgroups op) kk = Some g /\ off_of op kk = off nm g) as (kk & Hkk & Eo).
    { unfold op. rewrite (oo_sg o K). unfold off_of, off, nm, op, group_sizes. rewrite (oo_sg o K). cbn [implicit_inputs]. destruct Hg as [<-|[<-|[<-|[<-|[]]]]]; [exists 0%nat|exists 1%nat|exists 2%nat|exists 3%nat]; (split; [reflexivity|]); cbn; unfold group_size; rewrite ?G1, ?G2, ?G3, ?G4; cbn; lia. }
    rewrite (index_of_svname op kk g c nmv (oo_dvo o K) Hkk) by (rewrite group_names; assumption). cbn [fmap]. split; [f_equal; lia|].
    rewrite nvs_eq. eapply nth_in_range; eassumption. }
  rewrite (value_iff nm HN). split.
  - intros [_ (c & Hc & Hv)]. split; [eapply nth_error_In; eassumption|]. destruct (IX c Hc) as [E Hlt]. unfold value_at, get_var. fold op. rewrite E. cbn [bind]. unfold array_get.
    unfold stage_window in Hv. rewrite nth_error_fs in Hv by assumption. rewrite Hv. reflexivity.
  - intros [Hin Hv]. split; [assumption|]. apply In_nth_error in Hin. destruct Hin as (c & Hc). exists c. split; [assumption|]. destruct (IX c Hc) as [E Hlt].
    unfold value_at, get_var in Hv. fold op in Hv. rewrite E in Hv. cbn [bind] in Hv. unfold array_get in Hv. unfold stage_window. rewrite nth_error_fs by assumption. destruct (nth_error x _); [congruence|discriminate].
Qed.
End Alg.
