(** Lemmas for condensed problems, part 7: the jacobian of the condensed constraints where the structure has an entry. *)
From Verif Require Import Base RBase TreeModel UtilsModel UtilsProofs UtilsProofs2 IoModel CollocModel CollocProofs CollocProps MeshModel MeshProofs MeshProps OcpModel OcpProofs OcpProofs2 OcpProofs3 OcpSpec OcpProps NlpModel NlpProofs NlpProofs2 NlpProps NlpProps2
  AlgModel AlgSpec AlgProofs AlgProps ConvModel ConvSpec ConvProps CyclicModel ObjModel BoundModel ScaleModel BuildModel BuildSpec BuildProofs BuildProofs2 BuildProofs3 BuildProofs4 CondModel CondSpec CondProofs CondProofs2 CondProofs3 CondProofs4 CondProps CondProps2 CBuildModel.

Definition masked (n : nat) (Z : list R -> nat -> Prop) (m : nat) (f : list R -> list R) (rs cs : list nat) (v : list R -> list R) (D : list R -> nat -> nat -> R) : Prop :=
  is_jacobian n m f D /\ (forall x i j, List.length x = n -> (i < m)%nat -> (j < n)%nat -> In (i, j) (combine rs cs) -> tri rs cs (v x) i j = D x i j) /\
  (forall x i j, List.length x = n -> (i < m)%nat -> (j < n)%nat -> Z x j -> D x i j <> 0 -> In (i, j) (combine rs cs)).

Lemma masked_scaled : forall c si sc Jb (Z Z' : list R -> nat -> Prop), con_wf c -> List.length si = c_nin c -> List.length sc = c_ncon c -> Forall (fun v => v <> 0) si -> Forall (fun v => v <> 0) sc ->
  masked (c_nin c) Z' (c_ncon c) (c_f c) (c_jr c) (c_jc c) (c_j c) Jb -> (forall y j, List.length y = c_nin c -> Z y j -> Z' (vmul y si) j) ->
  masked (c_nin c) Z (c_ncon c) (con_constraints (rescaled c si sc)) (c_jr c) (c_jc c) (con_jacobian (rescaled c si sc)) (fun y i j => Jb (vmul y si) i j * (vget j si / vget i sc)).
Proof.
  intros c si sc Jb Z Z' W Ls Lc Ni Nc (H1 & H2 & H3) HZ.
  assert (forall y, List.length y = c_nin c -> List.length (vmul y si) = c_nin c) as LV by (intros y Ly; unfold vmul; rewrite map2_length; congruence).
  split; [|split].
  - intros x i j Hx Hil Hjl. apply pderiv_ext_len with (f := fun y => / vget i sc * vget i (c_f c (vmul y si))).
    { intros y Hy. rewrite (resc_constraints c si sc W Ls Lc) by congruence. unfold Rdiv. ring. }
    apply pderiv_eq with (d := / vget i sc * (Jb (vmul x si) i j * vget j si)); [unfold Rdiv; ring|].
    apply pderiv_scal. apply (pderiv_vmul (fun z => vget i (c_f c z))); [congruence|lia|]. apply H1; auto.
  - intros x i j Hx Hi Hj HI. rewrite (resc_jacobian c si sc W Ls Lc) by assumption. rewrite H2; auto.
  - intros x i j Hx Hi Hj HZx HD. apply (H3 (vmul x si) i j); auto. intro X. apply HD. rewrite X. ring.
Qed.
Lemma tri_outside : forall rs cs vs i j, ~ In (i, j) (combine rs cs) -> tri rs cs vs i j = 0.
Proof.
  induction rs as [|r rs IH]; intros [|c cs] [|v vs] i j H; cbn [tri]; try reflexivity. rewrite IH by (intro X; apply H; right; exact X). destruct (Nat.eqb_spec r i) as [->|]; [destruct (Nat.eqb_spec c j) as [->|]|]; cbn; try lra. exfalso. apply H. left. reflexivity.
Qed.
Lemma masked_exact : forall n Z m f rs cs v, is_jacobian n m f (fun x => tri rs cs (v x)) -> masked n Z m f rs cs v (fun x => tri rs cs (v x)).
Proof.
  intros n Z m f rs cs v H. split; [exact H|]. split; [reflexivity|]. intros x i j _ _ _ _ HD. destruct (in_dec (fun a b : nat * nat => ltac:(decide equality; apply Nat.eq_dec)) (i, j) (combine rs cs)) as [I|N]; [exact I|]. exfalso. apply HD.
  now apply tri_outside.
Qed.

Lemma in_nonzeros : forall nr nc T r q, In (r, q) (combine (fst (nonzeros nr nc T)) (snd (nonzeros nr nc T))) <-> (r < nr)%nat /\ (q < nc)%nat /\ T r q <> 0.
Proof.
  intros nr nc T r q. assert (forall (l : list (nat * nat)), combine (map fst l) (map snd l) = l) as CMB by (intro z; induction z as [|[a b] z IH]; [reflexivity|]; cbn [map combine fst snd]; now rewrite IH).
  unfold nonzeros. cbn [fst snd]. rewrite CMB, filter_In, in_flat_map. cbn [fst snd]. split.
  - intros ((x & Hx & Hy) & HB). apply in_map_iff in Hy. destruct Hy as (y & E & Hy). injection E as -> ->. apply in_seq in Hx, Hy. split; [lia|]. split; [lia|]. destruct (Req_EM_T (T r q) 0); [discriminate|assumption].
  - intros (Hr & Hq & HN). split; [|destruct (Req_EM_T (T r q) 0); [contradiction|reflexivity]]. exists q. split; [apply in_seq; lia|]. apply in_map_iff. exists r. split; [reflexivity|apply in_seq; lia].
Qed.

Section Masked.
Variable o : ocp.
Hypothesis K : ocp_ok o.
Hypothesis Hn : (1 <= num_intervals o)%nat.
Hypothesis Hd : (1 <= num_states o)%nat.
Variables (alg : bcon) (nimp : nat).
Hypothesis EA : explicit_algebra o alg nimp.

(** the structure is that of the jacobian at [x0], but for the column of the mesh scale *)
Lemma structure_form : forall x0 js, condensed_jacobianstructure o alg nimp x0 = Ok js -> exists T, js = nonzeros (num_condensed o nimp) (num_dec (oc_op o)) T /\
  (exact_algebra o alg -> List.length x0 = num_dec (oc_op o) -> forall r q, (r < num_condensed o nimp)%nat -> dscl o q = 0 -> T r q = cjac o alg nimp x0 r q).
Proof using K Hn Hd EA.
  intros x0 js H. unfold condensed_jacobianstructure in H. rewrite (idx_eq o K Hn Hd) in H. cbn [bind] in H. apply bind_ok in H. destruct H as (Jc & EJ & H).
  assert (num_continuity_cons o + List.length (kept_rows o alg nimp) = num_condensed o nimp)%nat as EN by (rewrite (ncc_eq o K Hn Hd alg nimp EA), (kept_len o K Hn Hd alg nimp EA); unfold num_condensed; nia).
  rewrite EN in H. exists (chainrule o alg nimp (dots o) Jc (alg_jac alg x0)). split; [assert (forall A (x y : A), Ok x = Ok y -> x = y) as OI by (intros A x y X; now injection X); symmetry; apply OI; exact H|].
  intros XA L r q Hr Hq. rewrite (cont_jac_eq o K Hn Hd alg nimp EA x0 L) in EJ. injection EJ as <-.
  destruct (Nat.lt_ge_cases r (num_intervals o * ((nspi (oc_op o) - 1) * num_states o))) as [C|C].
  - destruct (rowno_surj (nspi (oc_op o) - 1) (num_states o) (num_intervals o) r C) as (i & l & c & Hi & Hl & Hc & ->).
    rewrite (cjac_cont o K Hn Hd alg nimp EA (xa_jac _ _ XA) x0 i l c q L Hi Hl Hc). apply (chain_cont o K Hn Hd alg nimp EA (xa_jac _ _ XA)); auto. intros j _. rewrite Hq. ring.
  - rewrite (cjac_rest o K Hn Hd alg nimp EA (xa_jac _ _ XA)) by exact C. unfold chainrule. rewrite (ncc_eq o K Hn Hd alg nimp EA). destruct (Nat.ltb_spec r (num_intervals o * ((nspi (oc_op o) - 1) * num_states o))); [lia|reflexivity].
Qed.
End Masked.
