(** Lemmas for whole problems, part 5: what the pieces and the bounds mean. *)
From Verif Require Import Base RBase TreeModel UtilsModel UtilsProofs UtilsProofs2 UtilsProps IoModel CollocModel CollocProofs CollocProps MeshModel MeshProofs MeshProps OcpModel OcpProofs OcpSpec OcpProps NlpModel NlpSpec NlpProofs NlpProofs2 NlpProps NlpProps2
  AlgModel AlgSpec AlgProofs AlgProps ConvModel ConvSpec ConvProps CyclicModel CyclicSpec CyclicProps ObjModel ObjProps BoundModel BoundSpec BoundProofs BoundProps ScaleModel ScaleSpec ScaleProofs ScaleProps SolverProofs SolverProps BuildModel BuildSpec BuildProofs BuildProofs2 BuildProofs3 BuildProofs4.

Lemma dict_eq : forall V (d d' : dict V), keys d = keys d' -> NoDup (keys d) -> (forall k v w, dget k d = Some v -> dget k d' = Some w -> v = w) -> d = d'.
Proof.
  intros V d; induction d as [|[k v] d IH]; intros [|[k' v'] d'] E ND H; try discriminate; [reflexivity|]. cbn in E. injection E as -> E. cbn in ND. apply NoDup_cons_iff in ND. destruct ND as [N1 N2].
  assert (v = v') as -> by (apply (H k'); cbn; now rewrite String.eqb_refl). f_equal. apply IH; [assumption|assumption|]. intros q a b Ha Hb. assert (q <> k'). { intros ->. apply N1. apply dget_some_iff. eauto. }
  apply (H q); cbn; destruct (String.eqb_spec q k'); congruence.
Qed.
Lemma forall_nth0 : forall l : list R, Forall (fun v => v = 0) l <-> forall k, (k < List.length l)%nat -> nth k l 0 = 0.
Proof.
  intro l. split.
  - intros H k Hk. rewrite Forall_forall in H. apply H, nth_In, Hk.
  - intro H. apply Forall_forall. intros v Hv. apply (In_nth _ _ 0) in Hv. destruct Hv as (k & Hk & <-). now apply H.
Qed.

Section Sem.
Variables (roots : list R -> list R) (tn : string) (tns : option nat) (n : nat) (pts : option (list R)) (fixed : option R) (o : ocp) (fm pl : list R).
Context {P : Type}.
Variables (M : smodel P) (con : list string).
Let st := m_states M.
Let inp := m_inputs M.
Hypothesis B : OcpSpec.built roots tn tns n st inp con pts fixed o.
Hypothesis MO : model_ok M con.
Let nm := names_of M con.
Let op := oc_op o.
Let t := oc_tr o.
Hypothesis Lfm : List.length fm = num_stages op.
Hypothesis NS : num_stages op = (n * (t_stages t - 1) + 1)%nat.
Hypothesis HL : forall i, (i < n)%nat -> norm_len o i = interval_length pl i.
Hypothesis HM : forall i j, (i < n)%nat -> (j < t_stages t)%nat -> nth (stage_of t i j) fm 0 = nth i pl 0 + unit_point t j * interval_length pl i.

Lemma two_stages : (2 <= t_stages t)%nat.
Proof using B. clear Lfm NS HL HM. pose proof (built_ok _ _ _ _ _ _ _ _ _ _ B) as (K & _). apply (tr_two _ (oo_tr o K)). Qed.
Lemma scale_len : forall x s, scale_is o x s <-> mesh_length o fixed x s.
Proof using B. clear Lfm NS HL HM. pose proof (built_ok _ _ _ _ _ _ _ _ _ _ B) as (_ & _ & _ & _ & _ & _ & _ & _ & EF & _). intros x s. unfold scale_is, mesh_length. rewrite EF. reflexivity. Qed.
Lemma the_length : forall x, List.length x = num_dec op -> exists s, mesh_length o fixed x s /\ get_mesh_scale o x = Ok s.
Proof using B.
  clear Lfm NS HL HM. intros x Hx. destruct (C24_entries _ _ _ _ _ _ _ _ _ _ x B Hx) as (q & s & _ & S1 & _). exists s. split; [now apply scale_len|]. unfold scale_is in S1. unfold get_mesh_scale. destruct (oc_fixed o); [now subst s|assumption].
Qed.
Lemma length_fun : forall x a b, mesh_length o fixed x a -> mesh_length o fixed x b -> a = b.
Proof using. clear. intros x a b. unfold mesh_length, val, value_at. destruct fixed; congruence. Qed.
Lemma val_fun : forall x g q s a b, val o x g q s a -> val o x g q s b -> a = b.
Proof using. clear. intros x g q s a b. unfold val, value_at. congruence. Qed.

Lemma stage_lt : forall i j, (i < n)%nat -> (j < t_stages t)%nat -> (stage_of t i j < num_stages op)%nat.
Proof using NS B. clear Lfm HL HM. intros i j Hi Hj. pose proof two_stages. unfold stage_of. rewrite NS. nia. Qed.
Lemma stage_cover : forall k, (k < num_stages op)%nat -> exists i j, (i < n)%nat /\ (j < t_stages t)%nat /\ k = stage_of t i j.
Proof using NS B.
  clear Lfm HL HM. intros k Hk. pose proof two_stages as H2. pose proof (b_n _ _ _ _ _ _ _ _ _ _ B) as Hn. rewrite NS in Hk. unfold stage_of. set (m := (t_stages t - 1)%nat) in *. assert (1 <= m)%nat as Hm by lia.
  destruct (Nat.eq_dec k (n * m)) as [->|Hne].
  - exists (n - 1)%nat, m. split; [lia|]. split; [lia|]. nia.
  - exists (k / m)%nat, (k mod m)%nat. split; [apply Nat.div_lt_upper_bound; nia|]. split; [pose proof (Nat.mod_upper_bound k m); lia|]. rewrite Nat.mul_comm. apply Nat.div_mod. lia.
Qed.

(** the model algebra constraints hold iff the model is satisfied at every stage *)
Lemma algebra_sem : forall p x c, List.length x = num_dec op -> c_f c = (fun x => ok_or_nil (conv_constraints (unit_problem M con) op fm (fun x => or_zero (get_mesh_scale o x)) p x)) ->
  (Forall (fun v => v = 0) (c_f c x) <-> forall i j, (i < n)%nat -> (j < t_stages t)%nat -> let s := stage_of t i j in
    exists L ds di sd out, mesh_length o fixed x L /\ holds o x "states" st s ds /\ holds o x "inputs" inp s di /\
      m_forward M p ds di ((nth i pl 0 + unit_point t j * interval_length pl i) * L) = Ok (sd, out) /\
      (forall nm, In nm st -> exists v, dget nm sd = Some v /\ val o x "states_dot" nm s v) /\
      (forall nm, In nm con -> exists v, dget nm out = Some v /\ val o x "con_outputs" nm s v) /\
      (forall nm, In nm (m_residuals M) -> dget nm out = Some 0)).
Proof using B MO Lfm NS HM.
  clear HL. intros p x c Lx Ec. destruct (the_length x Lx) as (L & HLn & EL). pose proof (mo_names _ _ MO) as HN. fold nm in HN.
  set (scale := fun x => or_zero (get_mesh_scale o x)) in *. assert (scale x = L) as ES by (unfold scale; rewrite EL; reflexivity).
  destruct (C35_constraints _ (unit_problem M con) op fm scale p x) as (cv & E1 & E2 & E3).
  { symmetry. eapply nvs_eq. exact B. } { eapply nvs_pos; [exact B]. } { exact Lfm. } { exact Lx. } { intros y m Hy. destruct (shapes M con MO) as (X & _). apply X. exact Hy. }
  rewrite Ec, E1. cbn [ok_or_nil].
  set (nc := u_ncon (unit_problem M con)) in *.
  assert (forall k, (k < num_stages op)%nat -> List.length (stage_window op k x) = num_implicit_var nm) as WL.
  { intros k Hk. unfold nm. rewrite <- (nvs_eq _ _ _ _ _ _ _ _ _ B). fold op. apply win_len; assumption. }
  set (F := fun k => u_f (unit_problem M con) (stage_window op k x) (vget k fm * L) p).
  assert (Forall (fun v => v = 0) cv <-> forall k, (k < num_stages op)%nat -> Forall (fun v => v = 0) (F k)) as EF.
  { rewrite forall_nth0, E2. assert (forall k, (k < num_stages op)%nat -> List.length (F k) = nc) as LF by (intros k Hk; destruct (shapes M con MO) as (X & _); apply X; apply WL; assumption).
    assert (forall k i, (k < num_stages op)%nat -> (i < nc)%nat -> nth (k * nc + i) cv 0 = nth i (F k) 0) as N.
    { intros k i Hk Hi. specialize (E3 k i Hk Hi). rewrite ES in E3. fold (F k) in E3. rewrite (nth_error_nth' (F k) 0) in E3 by (rewrite LF; assumption). now apply nth_error_nth. }
    split.
    - intros H k Hk. apply forall_nth0. rewrite LF by assumption. intros i Hi. rewrite <- N by assumption. apply H. nia.
    - intros H k Hk. destruct (Nat.eq_dec nc 0) as [Z|NZ]; [rewrite Z in Hk; lia|]. rewrite (Nat.div_mod k nc NZ), (Nat.mul_comm nc). assert (k / nc < num_stages op)%nat by (apply Nat.div_lt_upper_bound; nia). pose proof (Nat.mod_upper_bound k nc NZ).
      rewrite N by assumption. pose proof (proj1 (forall_nth0 _) (H (k / nc)%nat ltac:(assumption))) as X. apply X. now rewrite LF. }
  rewrite EF. clear E1 E2 E3 EF.
  assert (forall k, (k < num_stages op)%nat -> exists ds di sd out, holds o x "states" st k ds /\ holds o x "inputs" inp k di /\ m_forward M p ds di (vget k fm * L) = Ok (sd, out) /\
    (Forall (fun v => v = 0) (F k) <-> (forall q v, In q st -> val o x "states_dot" q k v -> dget q sd = Some v) /\ (forall q v, In q con -> val o x "con_outputs" q k v -> dget q out = Some v) /\ (forall q, In q (m_residuals M) -> dget q out = Some 0))) as ST.
  { intros k Hk. destruct (C34_residual_zero nm (m_forward M p) (vget k fm * L) (stage_window op k x) HN (mo_forward _ _ MO p _) (WL k Hk)) as (ds & di & sd & out & res & [K1 D1] & [K2 D2] & E1 & E2 & E3).
    exists ds, di, sd, out. split; [split; [exact K1|]|split; [split; [exact K2|]|split; [exact E1|]]].
    - intros q v Hv. apply D1 in Hv. destruct Hv as [Hq Hv]. apply (window_value _ _ _ _ _ _ _ M con B MO) in Hv; [apply Hv|assumption|assumption|cbn; tauto].
    - intros q v Hv. apply D2 in Hv. destruct Hv as [Hq Hv]. apply (window_value _ _ _ _ _ _ _ M con B MO) in Hv; [apply Hv|assumption|assumption|cbn; tauto].
    - unfold F. cbn [unit_problem u_f]. fold nm. rewrite E2. cbn [ok_or_nil]. rewrite E3. 
      pose proof (fun g v q Hg => window_value _ _ _ _ _ _ _ M con B MO x k g v q Lx Hk Hg) as WV. fold nm op in WV.
      split; intros (H1 & H2 & H3).
      + split; [|split]; [intros q v Hq Hv; apply H1|intros q v Hq Hv; apply H2|exact H3]; apply WV; try (cbn; tauto); split; assumption.
      + split; [|split]; [intros q v Hv; apply WV in Hv; [apply H1; apply Hv|cbn; tauto]|intros q v Hv; apply WV in Hv; [apply H2; apply Hv|cbn; tauto]|exact H3]. }
  assert (forall k g q, (k < num_stages op)%nat -> In g flat_groups -> In q (nm g) -> exists v, val o x g q k v) as EV.
  { intros k g q Hk Hg Hq. assert (exists v, value_of nm (stage_window op k x) g q v) as [v Hv].
    { exists (vget (idx_of nm g q) (stage_window op k x)). apply idx_value; [exact HN|now apply WL|split; assumption]. }
    exists v. apply (window_value _ _ _ _ _ _ _ M con B MO) in Hv; [apply Hv|assumption|assumption|assumption]. }
  split.
  - intros H i j Hi Hj. pose proof (stage_lt i j Hi Hj) as Hs. destruct (ST _ Hs) as (ds & di & sd & out & A1 & A2 & A3 & A4). unfold vget in A3. rewrite HM in A3 by assumption.
    exists L, ds, di, sd, out. split; [assumption|]. split; [assumption|]. split; [assumption|]. split; [assumption|]. specialize (H _ Hs). apply A4 in H. destruct H as (H1 & H2 & H3). split; [|split].
    + intros q Hq. destruct (EV _ "states_dot" q Hs ltac:(cbn; tauto) Hq) as (v & Hv). exists v. split; [now apply H1|assumption].
    + intros q Hq. destruct (EV _ "con_outputs" q Hs ltac:(cbn; tauto) Hq) as (v & Hv). exists v. split; [now apply H2|assumption].
    + exact H3.
  - intros H k Hk. destruct (stage_cover k Hk) as (i & j & Hi & Hj & ->). destruct (ST _ Hk) as (ds & di & sd & out & A1 & A2 & A3 & A4). apply A4. unfold vget in A3. rewrite HM in A3 by assumption.
    destruct (H i j Hi Hj) as (L' & ds' & di' & sd' & out' & B0 & B1 & B2 & B3 & B4 & B5 & B6). assert (L' = L) as -> by (eapply length_fun; eassumption).
    assert (forall g names d d', holds o x g names (stage_of t i j) d -> holds o x g names (stage_of t i j) d' -> NoDup names -> d = d') as HU.
    { intros g names d d' [U1 U2] [V1 V2] ND. apply dict_eq; [congruence|now rewrite U1|]. intros q a b Ha Hb. eapply val_fun; [apply U2|apply V2]; eassumption. }
    destruct HN as (_ & ND & _). assert (ds' = ds) as -> by (eapply HU; [eassumption|eassumption|apply (ND "states"); cbn; tauto]). assert (di' = di) as -> by (eapply HU; [eassumption|eassumption|apply (ND "inputs"); cbn; tauto]).
    rewrite A3 in B3. injection B3 as <- <-. split; [|split].
    + intros q v Hq Hv. destruct (B4 q Hq) as (w & D & Hw). rewrite D. f_equal. eapply val_fun; eassumption.
    + intros q v Hq Hv. destruct (B5 q Hq) as (w & D & Hw). rewrite D. f_equal. eapply val_fun; eassumption.
    + exact B6.
Qed.

(** the continuity constraints hold iff the quadrature rule does in every interval *)
Lemma continuity_sem : forall x cs, List.length x = num_dec op -> continuity_constraints o x = Ok cs ->
  (Forall (fun v => v = 0) cs <-> forall i k q, (i < n)%nat -> (k < t_stages t - 1)%nat -> In q st ->
    exists L (X D : nat -> R), mesh_length o fixed x L /\
      (forall j, (j < t_stages t)%nat -> val o x "states" q (stage_of t i j) (X j) /\ val o x "states_dot" q (stage_of t i j) (D j)) /\
      rsum (map (fun j => entry k j (t_A t) * X j) (seq 0 (t_stages t))) = interval_length pl i * L * rsum (map (fun j => entry k j (t_B t) * D j) (seq 0 (t_stages t)))).
Proof using B HL.
  clear Lfm NS HM. intros x cs Lx Ecs. destruct (C24_entries _ _ _ _ _ _ _ _ _ _ x B Lx) as (cs' & L & E1 & E2 & E3 & E4 & E5). rewrite Ecs in E1. injection E1 as <-. apply scale_len in E2.
  unfold spi in E4, E5. fold t in E4, E5. set (m := (t_stages t - 1)%nat) in *. set (ns := List.length st) in *.
  assert (1 <= ns)%nat as Hns by (unfold ns; pose proof (b_states _ _ _ _ _ _ _ _ _ _ B); destruct st; [congruence|cbn; lia]). assert (1 <= m)%nat as Hm by (pose proof two_stages; unfold m; lia).
  rewrite forall_nth0, E3, E4. split.
  - intros H i k q Hi Hk Hq. apply In_nth_error in Hq. destruct Hq as (c & Hc). assert (c < ns)%nat as Hcl by (apply nth_error_Some; congruence). destruct (E5 i k c q Hi Hk Hc) as (X & D & V & E).
    exists L, X, D. split; [assumption|]. split; [exact V|]. rewrite <- (HL i Hi). assert (k * ns + c < m * ns)%nat by nia. assert (i * (m * ns) + (k * ns + c) < n * (m * ns))%nat by nia. rewrite H in E by assumption. lra.
  - intros H q Hq. set (i := (q / (m * ns))%nat). set (r := (q mod (m * ns))%nat). assert (m * ns <> 0)%nat as NZ by nia. assert (q = i * (m * ns) + r)%nat as Eq by (unfold i, r; rewrite (Nat.mul_comm (q / _)); apply Nat.div_mod; assumption).
    assert (r < m * ns)%nat as Hr by (apply Nat.mod_upper_bound; assumption). assert (i < n)%nat as Hi by (apply Nat.div_lt_upper_bound; nia).
    assert (r = r / ns * ns + r mod ns)%nat as Er by (rewrite (Nat.mul_comm (r / ns)); apply Nat.div_mod; lia). assert (r / ns < m)%nat as Hk by (apply Nat.div_lt_upper_bound; nia). assert (r mod ns < ns)%nat as Hc by (apply Nat.mod_upper_bound; lia).
    destruct (nth_error st (r mod ns)) as [v|] eqn:Ev; [|apply nth_error_None in Ev; fold ns in Ev; lia].
    destruct (E5 i (r / ns)%nat (r mod ns)%nat v Hi Hk Ev) as (X & D & V & E). rewrite <- Er, <- Eq in E. rewrite E.
    destruct (H i (r / ns)%nat v Hi Hk (nth_error_In _ _ Ev)) as (L' & X' & D' & HL' & V' & E'). assert (L' = L) as -> by (eapply length_fun; eassumption).
    assert (forall (A : nat -> R) (Y Z : nat -> R), (forall j, (j < t_stages t)%nat -> Y j = Z j) -> map (fun j => A j * Y j) (seq 0 (t_stages t)) = map (fun j => A j * Z j) (seq 0 (t_stages t))) as ME by (intros A Y Z HYZ; apply map_ext_in; intros j Hj; apply in_seq in Hj; rewrite HYZ; [reflexivity|lia]).
    rewrite (ME (fun j => entry (r / ns) j (t_A t)) X X') by (intros j Hj; eapply val_fun; [apply V|apply V']; assumption). rewrite (ME (fun j => entry (r / ns) j (t_B t)) D D') by (intros j Hj; eapply val_fun; [apply V|apply V']; assumption).
    rewrite (HL i Hi), E'. lra.
Qed.

Lemma cyclic_sem : forall excl cv x cs, build_cyclic_vars o excl = Ok cv -> cyclic_pairs st inp excl <> [] -> List.length x = num_dec op -> cyclic_constraint o cv x = Ok cs ->
  (Forall (fun v => v = 0) cs <-> forall g q, In (g, q) (cyclic_pairs st inp excl) -> exists v, val o x g q 0 v /\ val o x g q (n * (t_stages t - 1)) v).
Proof using B MO NS.
  clear Lfm HL HM. intros excl cv x cs EC NE Lx Ecs. destruct (C28_values _ _ _ _ _ _ _ _ _ _ excl cv x B (mo_dots _ _ MO) EC NE Lx) as (cs' & E1 & E2 & E3 & E4). rewrite Ecs in E1. injection E1 as <-.
  assert (num_stages (oc_op o) - 1 = n * (t_stages t - 1))%nat as Q by (fold op; rewrite NS; apply Nat.add_sub). rewrite Q in *.
  transitivity (forall k, nth k cs 0 = 0).
  - rewrite forall_nth0. split; [|auto]. intros H k. destruct (Nat.lt_ge_cases k (List.length cs)); [now apply H|now apply nth_overflow].
  - rewrite E4. split.
    + intros H g q Hin. apply In_nth_error in Hin. destruct Hin as (k & Hk). destruct (E3 k g q Hk) as (a & b & Va & Vb & _). exists a. split; [exact Va|]. rewrite (H g q a b (nth_error_In _ _ Hk) Va Vb). exact Vb.
    + intros H g q a b Hin Va Vb. destruct (H g q Hin) as (v & V1 & V2). rewrite (val_fun _ _ _ _ _ _ Va V1). eapply val_fun; eassumption.
Qed.

(** every position of the vector is a variable at a stage *)
Lemma slot_cover : forall k, (k < num_dec op)%nat -> exists g q s, known_var st inp con fixed g q /\ (s < num_stages op)%nat /\ index_at op g q (Z.of_nat s) = Ok k.
Proof using B.
  clear Lfm NS HL HM. intros k Hk. pose proof (built_ok _ _ _ _ _ _ _ _ _ _ B) as (K & _). destruct (b_make _ _ _ _ _ _ _ _ _ _ B) as (out & res & BM).
  assert (exists m ni ns gn, make_dvo m ni ns implicit_inputs gn = Ok op) as (m & ni & ns & gn & ED).
  { unfold make_ocp in BM. destruct (match fixed with Some s => negb (rltb 0 s) | None => false end); [discriminate|]. apply bind_ok in BM. destruct BM as (t' & _ & BM). apply bind_ok in BM. destruct BM as (op' & ED & BM). apply bind_ok in BM. destruct BM as (m & _ & BM). injection BM as BM. unfold op. rewrite <- BM. cbn [oc_op]. eauto. }
  destruct (proj2 (proj2 (C08_bijection _ _ _ _ _ _ ED ltac:(cbn; intuition discriminate))) k Hk) as ([g q s|q] & SO & SI).
  - destruct SO as (Hg & Hq & Hs). exists g, q, s. split; [|split; assumption]. apply (known_slot _ _ _ _ _ _ _ _ _ o g q s B). unfold op in Hg. rewrite (oo_sg o K) in Hg. split; [unfold five; apply in_app_iff; now left|]. unfold names5. destruct (String.eqb_spec g "global") as [->|_]; [cbn in Hg; intuition discriminate|exact Hq].
  - exists "global", q, 0%nat. split; [|split; [apply num_stages_pos|exact SI]]. apply (known_slot _ _ _ _ _ _ _ _ _ o "global" q 0%nat B). split; [cbn; tauto|]. exact SO.
Qed.
Lemma slot_of : forall g q s, known_var st inp con fixed g q -> (s < num_stages op)%nat -> exists k, index_at op g q (Z.of_nat s) = Ok k /\ (k < num_dec op)%nat.
Proof using B.
  clear Lfm NS HL HM. intros g q s Hv Hs. pose proof (built_ok _ _ _ _ _ _ _ _ _ _ B) as (K & _). destruct (has_slot op g q s Hs) as (k & Hk).
  - apply (known_slot _ _ _ _ _ _ _ _ _ o g q s B) in Hv. destruct Hv as [H5 Hq]. unfold has_var. unfold names5 in Hq. destruct (String.eqb_spec g "global") as [->|Hg]; [left; auto|right; split; [assumption|]].
    unfold stage_var_names. apply in_flat_map. exists g. unfold op. rewrite (oo_sg o K). split; [unfold five in H5; apply in_app_iff in H5; destruct H5 as [H5|[H5|[]]]; [assumption|congruence]|]. now apply in_map.
  - exists k. split; [apply Hk|]. apply (slot_lt _ _ _ _ _ Hk).
Qed.
Lemma known_has : forall g q, known_var st inp con fixed g q -> has_var op g q.
Proof using B.
  clear Lfm NS HL HM. intros g q Hv. pose proof (built_ok _ _ _ _ _ _ _ _ _ _ B) as (K & _). apply (known_slot _ _ _ _ _ _ _ _ _ o g q 0%nat B) in Hv. destruct Hv as [H5 Hq]. unfold has_var. unfold names5 in Hq. destruct (String.eqb_spec g "global") as [->|Hg]; [left; auto|right; split; [assumption|]].
  unfold stage_var_names. apply in_flat_map. exists g. unfold op. rewrite (oo_sg o K). split; [unfold five in H5; apply in_app_iff in H5; destruct H5 as [H5|[H5|[]]]; [assumption|congruence]|]. now apply in_map.
Qed.
Lemma val_slot : forall x g q s k v, index_at op g q (Z.of_nat s) = Ok k -> (val o x g q s v <-> nth_error x k = Some v).
Proof using. clear. intros x g q s k v E. unfold val, value_at, get_var. fold op. rewrite E. cbn [bind]. unfold array_get. destruct (nth_error x k); split; intro H; congruence. Qed.

Lemma bounds_sem : forall ops x, List.length x = num_dec op -> all_succeed op (init_bounds op) ops -> no_direct ops ->
  (within (lbs (brun op ops)) (ubs (brun op ops)) x <-> forall g q s, known_var st inp con fixed g q -> (s <= n * (t_stages t - 1))%nat ->
    exists v, val o x g q s v /\ ele (fst (expected op (all_bounds ops) (all_bcs ops) g q s)) v /\ ege (snd (expected op (all_bounds ops) (all_bcs ops) g q s)) v).
Proof using B NS.
  clear Lfm HL HM. intros ops x Lx HA HD. destruct (C26_lower_le_upper _ _ _ _ _ _ _ _ _ _ ops B) as (L1 & L2 & _). fold op in L1, L2.
  assert (forall A (Q : A -> R -> Prop) (l : list A) (y : list R), List.length l = List.length y -> ((forall i a v, nth_error l i = Some a -> nth_error y i = Some v -> Q a v) <-> Forall2 Q l y)) as F.
  { intros A Q. induction l as [|a l IH]; intros [|v y] Ly; try discriminate; [split; [constructor|intros _ [|i] ? ? H; discriminate]|]. injection Ly as Ly. split.
    - intro H. constructor; [apply (H 0%nat); reflexivity|]. apply IH; [exact Ly|]. intros i b w Hb Hw. now apply (H (Datatypes.S i)).
    - intro H. inversion H; subst. intros [|i] b w Hb Hw; cbn in *; [congruence|]. eapply IH; eassumption. }
  unfold within. rewrite <- !F by congruence. split.
  - intros [H1 H2] g q s Hv Hs. assert (s < num_stages op)%nat as Hs' by (rewrite NS, Nat.add_1_r; now apply Nat.lt_succ_r). destruct (C26_values _ _ _ _ _ _ _ _ _ _ ops g q s B HA HD (known_has g q Hv) Hs') as (k & E & Nl & Nu).
    fold op in E. destruct (slot_of g q s Hv Hs') as (k' & E' & Hk). rewrite E in E'. injection E' as <-. destruct (nth_error x k) as [v|] eqn:Ev; [|apply nth_error_None in Ev; rewrite Lx in Ev; exfalso; apply (Nat.lt_irrefl k); eapply Nat.lt_le_trans; eassumption].
    exists v. split; [now apply (val_slot x g q s k v E)|]. split; [eapply H1|eapply H2]; eassumption.
  - intro H. assert (forall k a b v, nth_error (lbs (brun op ops)) k = Some a -> nth_error (ubs (brun op ops)) k = Some b -> nth_error x k = Some v -> ele a v /\ ege b v) as G.
    { intros k a b v Ha Hb Hv. assert (k < num_dec op)%nat as Hk by (rewrite <- Lx; apply nth_error_Some; congruence). destruct (slot_cover k Hk) as (g & q & s & Hg & Hs & E).
      destruct (C26_values _ _ _ _ _ _ _ _ _ _ ops g q s B HA HD (known_has g q Hg) Hs) as (k' & E' & Nl & Nu). fold op in E'. rewrite E in E'. injection E' as <-.
      destruct (H g q s Hg) as (w & Vw & W1 & W2); [rewrite NS, Nat.add_1_r in Hs; now apply Nat.lt_succ_r|]. apply (val_slot x g q s k w E) in Vw. fold op in Nl, Nu. rewrite Ha in Nl. rewrite Hb in Nu. rewrite Hv in Vw. injection Nl as ->. injection Nu as ->. injection Vw as ->. auto. }
    split; intros k a v Ha Hv.
    + destruct (nth_error (ubs (brun op ops)) k) as [b|] eqn:Eb; [now apply (G k a b v)|]. apply nth_error_None in Eb. assert (k < List.length x)%nat by (apply nth_error_Some; congruence). rewrite L2, <- Lx in Eb. exfalso. apply (Nat.lt_irrefl k). eapply Nat.lt_le_trans; eassumption.
    + destruct (nth_error (lbs (brun op ops)) k) as [b|] eqn:Eb; [now apply (G k b a v)|]. apply nth_error_None in Eb. assert (k < List.length x)%nat by (apply nth_error_Some; congruence). rewrite L1, <- Lx in Eb. exfalso. apply (Nat.lt_irrefl k). eapply Nat.lt_le_trans; eassumption.
Qed.

Section Scaled.
Variables (h : list (list scale_config)) (scs : list scale_config).
Hypothesis HS : snd (set_scales o false (srun o false h) scs) = Ok tt.
Let s' := fst (set_scales o false (srun o false h) scs).
Lemma dec_at : forall k g q s, known_var st inp con fixed g q -> (s < num_stages op)%nat -> index_at op g q (Z.of_nat s) = Ok k -> nth_error (s_dec s') k = Some (scale_for scs g q).
Proof using B HS. clear Lfm NS HL HM. intros k g q s Hv Hs E. exact (proj1 (C27_variables _ _ _ _ _ _ _ _ _ _ false h scs g q s k B HS Hv Hs E)). Qed.
Lemma dec_len : List.length (s_dec s') = num_dec op /\ s_pushed s' = s_dec s'.
Proof using B HS.
  clear Lfm NS HL HM. assert (exists q, In q st) as [q Hq] by (pose proof (b_states _ _ _ _ _ _ _ _ _ _ B); destruct st as [|q r]; [congruence|exists q; now left]).
  destruct (slot_of "states" q 0%nat) as (k & E & _); [left; auto|apply num_stages_pos|]. exact (proj2 (C27_variables _ _ _ _ _ _ _ _ _ _ false h scs "states" q 0%nat k B HS ltac:(left; auto) (num_stages_pos _) E)).
Qed.
Lemma scale_pos : Forall (fun c => 0 < sc_v c) scs -> forall g q, 0 < scale_for scs g q.
Proof using. clear. intros H g q. induction scs as [|c r IH]; cbn [scale_for]; [lra|]. apply Forall_cons_iff in H. destruct H as [H1 H2]. destruct (existsb _ r); [auto|]. destruct (_ && _)%bool; [assumption|lra]. Qed.
Lemma dec_pos : Forall (fun c => 0 < sc_v c) scs -> Forall (fun v => 0 < v) (s_dec s').
Proof using B HS.
  clear Lfm NS HL HM. intro HP. apply Forall_forall. intros v Hv. apply In_nth_error in Hv. destruct Hv as (k & Hk). assert (k < num_dec op)%nat as Hk' by (rewrite <- (proj1 dec_len); apply nth_error_Some; congruence).
  destruct (slot_cover k Hk') as (g & q & s & Hg & Hs & E). rewrite (dec_at k g q s Hg Hs E) in Hk. injection Hk as <-. now apply scale_pos.
Qed.
Lemma cont_len : List.length (s_cont s') = num_continuity_cons o.
Proof using B HS. clear Lfm NS HL HM. exact (proj1 (C27_continuity _ _ _ _ _ _ _ _ _ _ h scs B HS)). Qed.
Lemma cont_pos : Forall (fun c => 0 < sc_v c) scs -> Forall (fun v => v <> 0) (s_cont s').
Proof using B HS.
  clear Lfm NS HL HM. intro HP. apply Forall_forall. intros v Hv. apply In_nth_error in Hv. destruct Hv as (q & Hq). destruct (C27_continuity _ _ _ _ _ _ _ _ _ _ h scs B HS) as (L & N). fold s' in L, N.
  pose proof (built_ok _ _ _ _ _ _ _ _ _ _ B) as (K & _ & _ & En & Ed & _). assert (q < num_continuity_cons o)%nat as Hql by (rewrite <- L; apply nth_error_Some; congruence). unfold num_continuity_cons in Hql. rewrite (tr_ncon _ (oo_tr o K)), En, Ed in Hql.
  unfold spi in N. fold t in N, Hql. set (m := (t_stages t - 1)%nat) in *. set (ns := List.length st) in *.
  assert (1 <= ns)%nat as Hns by (unfold ns; pose proof (b_states _ _ _ _ _ _ _ _ _ _ B); destruct st; [congruence|cbn; lia]). assert (1 <= m)%nat as Hm by (pose proof two_stages; unfold m; lia).
  set (i := (q / (m * ns))%nat). set (r := (q mod (m * ns))%nat). assert (m * ns <> 0)%nat as NZ by nia. assert (q = i * (m * ns) + r)%nat as Eq by (unfold i, r; rewrite (Nat.mul_comm (q / _)); apply Nat.div_mod; assumption).
  assert (r < m * ns)%nat as Hr by (apply Nat.mod_upper_bound; assumption). assert (i < n)%nat as Hi by (apply Nat.div_lt_upper_bound; nia).
  assert (r = r / ns * ns + r mod ns)%nat as Er by (rewrite (Nat.mul_comm (r / ns)); apply Nat.div_mod; lia). assert (r / ns < m)%nat as Hk by (apply Nat.div_lt_upper_bound; nia). assert (r mod ns < ns)%nat as Hc by (apply Nat.mod_upper_bound; lia).
  destruct (nth_error st (r mod ns)) as [w|] eqn:Ev; [|apply nth_error_None in Ev; fold ns in Ev; lia].
  specialize (N i (r / ns)%nat (r mod ns)%nat w Hi Hk Ev). rewrite <- Er, <- Eq, Hq in N. injection N as ->. pose proof (scale_pos HP "states" w). lra.
Qed.
Lemma alg_len : oc_nres o = List.length (m_residuals M) -> List.length (s_alg s') = (num_stages op * num_implicit_res nm)%nat.
Proof using B HS. clear Lfm NS HL HM. intro ER. pose proof (proj1 (C27_algebra _ _ _ _ _ _ _ _ _ _ h scs B HS)) as X. rewrite ER in X. exact X. Qed.
Lemma alg_pos : Forall (fun c => 0 < sc_v c) scs -> Forall (fun v => v <> 0) (s_alg s').
Proof using B HS.
  clear Lfm NS HL HM. intro HP. apply Forall_forall. intros v Hv. apply In_nth_error in Hv. destruct Hv as (q & Hq). destruct (C27_algebra _ _ _ _ _ _ _ _ _ _ h scs B HS) as (L & N). fold s' op in L, N.
  set (ns := List.length st) in *. set (nc := List.length con) in *. set (nr := oc_nres o) in *. assert (q < num_stages op * (ns + nc + nr))%nat as Hql by (rewrite <- L; apply nth_error_Some; congruence).
  assert (ns + nc + nr <> 0)%nat as NZ by nia. set (w := (ns + nc + nr)%nat) in *. assert (q = q / w * w + q mod w)%nat as Eq by (rewrite (Nat.mul_comm (q / w)); apply Nat.div_mod; assumption). assert (q mod w < w)%nat as Hc by (apply Nat.mod_upper_bound; lia).
  assert (q / w < num_stages op)%nat as Ht by (apply Nat.div_lt_upper_bound; nia). set (c := (q mod w)%nat) in *. set (tt0 := (q / w)%nat) in *. destruct (Nat.lt_ge_cases c ns) as [C1|C1]; [|destruct (Nat.lt_ge_cases c (ns + nc)) as [C2|C2]].
  - destruct (nth_error st c) as [z|] eqn:Ez; [|apply nth_error_None in Ez; fold ns in Ez; lia]. destruct (N tt0 c Ht) as (N1 & _). specialize (N1 z Ez). rewrite <- Eq, Hq in N1. injection N1 as ->. pose proof (scale_pos HP "states" z). lra.
  - destruct (nth_error con (c - ns)) as [z|] eqn:Ez; [|apply nth_error_None in Ez; fold nc in Ez; lia]. destruct (N tt0 (c - ns)%nat Ht) as (_ & N1 & _). specialize (N1 z Ez). replace (tt0 * w + (ns + (c - ns)))%nat with q in N1 by lia. rewrite Hq in N1. injection N1 as ->. pose proof (scale_pos HP "con_outputs" z). lra.
  - destruct (N tt0 (c - (ns + nc))%nat Ht) as (_ & _ & N1). specialize (N1 ltac:(unfold w in Hc; lia)). replace (tt0 * w + (ns + nc + (c - (ns + nc))))%nat with q in N1 by lia. rewrite Hq in N1. injection N1 as ->. lra.
Qed.
Lemma physical_iff : forall y x, List.length y = num_dec op -> (physical o st inp con fixed scs y x <-> x = vmul y (s_dec s')).
Proof using B HS NS.
  clear Lfm HL HM. intros y x Ly. destruct dec_len as [Ld _].
  assert (List.length (vmul y (s_dec s')) = num_dec op) as Lv by (rewrite vmul_length; congruence).
  split.
  - intros [Lx H]. apply nth_error_ext. intro k. destruct (Nat.lt_ge_cases k (num_dec op)) as [Hk|Hk].
    + destruct (slot_cover k Hk) as (g & q & s & Hg & Hs & E). destruct (nth_error y k) as [v|] eqn:Ev; [|apply nth_error_None in Ev; exfalso; apply (Nat.lt_irrefl k); eapply Nat.lt_le_trans; [exact Hk|rewrite <- Ly; exact Ev]].
      pose proof (proj2 (val_slot y g q s k v E) Ev) as V. specialize (H g q s v Hg V). apply (val_slot x g q s k _ E) in H. rewrite H. symmetry. apply nth_vmul; [assumption|]. now apply (dec_at k g q s).
    + rewrite !(proj2 (nth_error_None _ _)); [reflexivity|now rewrite Lv|now rewrite Lx, Ly].
  - intros ->. split; [congruence|]. intros g q s v Hg V. unfold val, value_at, get_var in *. destruct (index_at (oc_op o) g q (Z.of_nat s)) as [k|] eqn:E; [|discriminate]. cbn [bind] in *. unfold array_get in *.
    destruct (nth_error y k) as [w|] eqn:Ew; [|discriminate]. injection V as ->.
    assert (exists s0, (s0 < num_stages op)%nat /\ index_at op g q (Z.of_nat s0) = Ok k) as (s0 & Hs0 & E0).
    { destruct (String.eqb_spec g "global") as [->|Hgl]; [exists 0%nat; split; [apply num_stages_pos|exact E]|]. exists s. split; [|exact E].
      unfold index_at in E. destruct (String.eqb_spec g "global"); [contradiction|]. unfold norm_stage in E. fold op in E. destruct (Z.ltb_spec (Z.of_nat (num_stages op) - 1) (Z.of_nat s)) as [C|C]; cbn [orb] in E; [discriminate|]. lia. }
    erewrite nth_vmul; [reflexivity|eassumption|]. now apply (dec_at k g q s0).
Qed.
End Scaled.
End Sem.
