From Verif Require Import Base RBase TreeModel UtilsModel UtilsProofs IoModel OcpModel AlgModel AlgSpec AlgProofs AlgProps NlpModel OcpProofs OcpProofs2 ConvModel BuildModel BuildSpec CBuildSpec JaxModel JaxSpec.
Import ListNotations.

(** ** reading a matrix at a duplicate-free structure *)
Lemma tri_extract : forall F rows cols i j, List.length rows = List.length cols -> NoDup (combine rows cols) ->
  (In (i, j) (combine rows cols) -> tri rows cols (map2 F rows cols) i j = F i j) /\ (~ In (i, j) (combine rows cols) -> tri rows cols (map2 F rows cols) i j = 0).
Proof.
  intros F. induction rows as [|r rows IH]; intros [|c cols] i j L N; try discriminate; [split; [now intro H|reflexivity]|].
  cbn [combine map2 tri] in *. inversion N as [|? ? N1 N2]; subst. cbn [List.length] in L. destruct (IH cols i j ltac:(lia) N2) as [I1 I2].
  destruct (Nat.eqb_spec r i) as [->|D]; [destruct (Nat.eqb_spec c j) as [->|D]|]; cbn [andb].
  - split; [|intro H; exfalso; apply H; now left]. intros _. rewrite I2 by assumption. ring.
  - split; intro H; [destruct H as [H|H]; [congruence|]; rewrite I1 by assumption; ring|rewrite I2; [ring|intro K; apply H; now right]].
  - split; intro H; [destruct H as [H|H]; [congruence|]; rewrite I1 by assumption; ring|rewrite I2; [ring|intro K; apply H; now right]].
Qed.
Lemma finite_choice : forall A (Q : nat -> A -> Prop) (d : A) m, (forall r, (r < m)%nat -> exists a, Q r a) -> exists G, forall r, (r < m)%nat -> Q r (G r).
Proof.
  intros A Q d m. induction m as [|m IH]; intro H.
  - exists (fun _ => d). intros r Hr; lia.
  - destruct IH as [G HG]; [intros r Hr; apply H; lia|]. destruct (H m ltac:(lia)) as [a Ha]. exists (fun r => if Nat.eqb r m then a else G r). intros r Hr. destruct (Nat.eqb_spec r m) as [->|D]; [assumption|]. apply HG; lia.
Qed.

(** ** a function of the first components *)
Lemma firstn_upd_in : forall n j (t : R) x, (j < n)%nat -> firstn n (upd j t x) = upd j t (firstn n x).
Proof. induction n as [|n IH]; intros j t x H; [lia|]. destruct x as [|a x]; [now destruct j|]. destruct j; cbn [upd firstn]; [reflexivity|]. f_equal. apply IH. lia. Qed.
Lemma firstn_upd_out : forall n j (t : R) x, (n <= j)%nat -> firstn n (upd j t x) = firstn n x.
Proof. induction n as [|n IH]; intros j t x H; [reflexivity|]. destruct x as [|a x]; [now destruct j|]. destruct j; [lia|]. cbn [upd firstn]. f_equal. apply IH. lia. Qed.
Lemma vget_firstn : forall n j x, (j < n)%nat -> vget j (firstn n x) = vget j x.
Proof. induction n as [|n IH]; intros j x H; [lia|]. destruct x as [|a x]; [reflexivity|]. destruct j; [reflexivity|]. unfold vget in *. cbn [firstn nth]. apply IH. lia. Qed.
Lemma pderiv_firstn : forall n f x j d, (j < n)%nat -> pderiv f (firstn n x) j d -> pderiv (fun y => f (firstn n y)) x j d.
Proof.
  intros n f x j d H D. unfold pderiv in *. rewrite vget_firstn in D by assumption. eapply dlim_ext; [|exact D]. intro t. cbn beta. now rewrite firstn_upd_in.
Qed.
Lemma pderiv_firstn_out : forall n f x j, (n <= j)%nat -> pderiv (fun y => f (firstn n y)) x j 0.
Proof. intros n f x j H. unfold pderiv. eapply dlim_ext; [|apply (derivable_pt_lim_const (f (firstn n x)))]. intro t. unfold fct_cte. cbn beta. now rewrite firstn_upd_out. Qed.
Lemma is_hessian_firstn : forall n N f H, (n <= N)%nat -> is_hessian n f H -> exists K, is_hessian N (fun y => f (firstn n y)) K.
Proof.
  intros n N f H L (g & G & HH). exists (fun y i j => if andb (Nat.ltb i n) (Nat.ltb j n) then H (firstn n y) i j else 0), (fun y i => if Nat.ltb i n then g (firstn n y) i else 0). split.
  - intros x j Lx Hj. destruct (Nat.ltb_spec j n) as [A|A]; [apply pderiv_firstn; [assumption|]; apply G; [rewrite firstn_length; lia|assumption]|now apply pderiv_firstn_out].
  - intros x i j Lx Hi Hj. destruct (Nat.ltb_spec i n) as [A|A]; cbn [andb]; [|apply pderiv_const]. destruct (Nat.ltb_spec j n) as [B|B]; [|now apply (pderiv_firstn_out n (fun w => g w i))].
    apply (pderiv_firstn n (fun w => g w i)); [assumption|]. apply HH; [rewrite firstn_length; lia|assumption|assumption].
Qed.
Lemma is_hessian_ext : forall n f h H, (forall x, List.length x = n -> f x = h x) -> is_hessian n f H -> is_hessian n h H.
Proof.
  intros n f h H E (g & G & HH). exists g. split; [|exact HH]. intros x j Lx Hj. eapply pderiv_ext_len; [|apply G; assumption]. intros y Ly. apply E. congruence.
Qed.
Lemma is_hessian_plus : forall n f h H K, is_hessian n f H -> is_hessian n h K -> is_hessian n (fun x => f x + h x) (fun x i j => H x i j + K x i j).
Proof.
  intros n f h H K (g & G & HH) (k & G' & HK). exists (fun x i => g x i + k x i). split.
  - intros x j Lx Hj. apply pderiv_plus; auto.
  - intros x i j Lx Hi Hj. apply (pderiv_plus (fun y => g y i) (fun y => k y i)); auto.
Qed.
Lemma is_hessian_scal : forall n f c H, is_hessian n f H -> is_hessian n (fun x => c * f x) (fun x i j => c * H x i j).
Proof.
  intros n f c H (g & G & HH). exists (fun x i => c * g x i). split.
  - intros x j Lx Hj. apply pderiv_scal; auto.
  - intros x i j Lx Hi Hj. apply (pderiv_scal (fun y => g y i)); auto.
Qed.
Lemma is_hessian_const : forall n c, is_hessian n (fun _ => c) (fun _ _ _ => 0).
Proof. intros n c. exists (fun _ _ => 0). split; [intros x j Lx Hj|intros x i j Lx Hi Hj]; exact (pderiv_const _ _ _). Qed.
Lemma is_hessian_coord : forall n k, is_hessian n (vget k) (fun _ _ _ => 0).
Proof. intros n k. exists (fun _ j => if Nat.eqb k j then 1 else 0). split; [intros x j Lx Hj; apply pderiv_coord; lia|]. intros x i j Lx Hi Hj. apply pderiv_const. Qed.
(** sums over rows *)
Lemma is_hessian_sum : forall n (fs : nat -> list R -> R) Hs (l : list nat), (forall r, In r l -> is_hessian n (fs r) (Hs r)) ->
  is_hessian n (fun x => rsum (map (fun r => fs r x) l)) (fun x i j => rsum (map (fun r => Hs r x i j) l)).
Proof.
  intros n fs Hs l. induction l as [|a l IH]; intro H; cbn [map].
  - apply is_hessian_const.
  - apply (is_hessian_plus n (fs a) (fun x => rsum (map (fun r => fs r x) l))); [apply H; now left|]. apply IH. intros r Hr. apply H. now right.
Qed.
Lemma vdot_rsum : forall l v, List.length l = List.length v -> vdot l v = rsum (map (fun r => vget r l * vget r v) (seq 0 (List.length v))).
Proof.
  induction l as [|a l IH]; intros [|b v] L; try discriminate; [reflexivity|]. cbn [List.length] in *. unfold vdot, vmul in *. cbn [seq map map2 rsum]. f_equal.
  rewrite IH by lia. f_equal. rewrite <- seq_shift, map_map. reflexivity.
Qed.

Section Row.
Context {P : Type}.
Variables (M : smodel P) (con : list string) (p : P) (mesh : R).
Hypothesis D : declared_ok M con.
Let nm := names_of M con.
Let ns := List.length (m_states M).
Let ni := List.length (m_inputs M).

Lemma declared_names : names_ok nm.
Proof.
  destruct D as [(A & B & C & E & F & G) _ _ _]. split; [reflexivity|]. split; [|split; assumption].
  intros g Hg. destruct Hg as [<-|[<-|[<-|[<-|[<-|[]]]]]]; assumption.
Qed.
Lemma declared_forward : forall q m, forward_ok nm (m_forward M q) m.
Proof. intros q m ds di Hs Hi. apply (dc_forward M con D q ds di m); assumption. Qed.

(** what row [r] of the constraints computes from states and inputs *)
Definition row_value (r : nat) : list R -> R :=
  if Nat.ltb r ns then derivative_value M p mesh (nth r (m_states M) "")
  else if Nat.ltb r (ns + List.length con) then output_value M p mesh (nth (r - ns) con "") else output_value M p mesh (nth (r - ns - List.length con) (m_residuals M) "").
Lemma nth_of : forall (v : list R) (l : list string) (d : dict R) i, List.length v = List.length l -> (i < List.length l)%nat -> (forall i n, nth_error l i = Some n -> nth_error v i = dget n d) ->
  vget i v = match dget (nth i l "") d with Some x => x | None => 0 end.
Proof.
  intros v l d i L Hi H. specialize (H i (nth i l "") ltac:(now apply nth_error_nth')). rewrite <- H. unfold vget. destruct (nth_error v i) as [x|] eqn:E; [now apply nth_error_nth|]. apply nth_error_None in E. lia.
Qed.
Lemma comp_row : forall x r, List.length x = num_implicit_var nm -> (r < num_implicit_res nm)%nat ->
  comp nm (m_forward M p) mesh r (part nm "states" x) (part nm "inputs" x) = row_value r (firstn (ns + ni) x).
Proof.
  intros x r Lx Hr. pose proof (nvar nm declared_names) as NV. pose proof (nres nm) as NR. change (nm "states") with (m_states M) in *. change (nm "inputs") with (m_inputs M) in *. change (nm "con_outputs") with con in *. change (nm "residuals") with (m_residuals M) in *. fold ns in NV, NR. fold ni in NV.
  unfold comp, core. assert (part nm "states" x = firstn ns x) as E1 by reflexivity. assert (part nm "inputs" x = firstn ni (skipn ns x)) as E2 by reflexivity. rewrite E1, E2.
  assert (List.length (firstn ns x) = ns) as L1 by (rewrite firstn_length; lia). assert (List.length (firstn ni (skipn ns x)) = ni) as L2 by (rewrite firstn_length, skipn_length; lia).
  destruct (fwa_ok nm (m_forward M p) mesh declared_names (declared_forward p mesh) (firstn ns x) (firstn ni (skipn ns x)) L1 L2) as (sd & out & v1 & v2 & v3 & v4 & EF & -> & LA & LB & LC & A1 & A3 & A4 & _).
  change (nm "states") with (m_states M) in *. change (nm "inputs") with (m_inputs M) in *. change (nm "con_outputs") with con in *. change (nm "residuals") with (m_residuals M) in *. fold ns in LA.
  assert (called M p mesh (firstn (ns + ni) x) = Ok (sd, out)) as EC.
  { unfold called. fold ns. rewrite firstn_firstn. replace (Nat.min ns (ns + ni)) with ns by lia. replace (skipn ns (firstn (ns + ni) x)) with (firstn ni (skipn ns x)); [exact EF|]. rewrite skipn_firstn_comm. f_equal. lia. }
  rewrite !vget_app, LA, LB. unfold row_value.
  destruct (Nat.ltb_spec r ns) as [H1|H1].
  - unfold derivative_value. rewrite EC. apply nth_of; assumption.
  - destruct (Nat.ltb_spec (r - ns) (List.length con)) as [H2|H2]; destruct (Nat.ltb_spec r (ns + List.length con)) as [H3|H3]; try lia; unfold output_value; rewrite EC; apply nth_of; try assumption; lia.
Qed.
Lemma residual_row : forall x r, List.length x = num_implicit_var nm -> (r < num_implicit_res nm)%nat ->
  vget r (residual nm (m_forward M p) mesh x) = row_value r (firstn (ns + ni) x) - match lin nm r with Some j => vget j x | None => 0 end.
Proof.
  intros x r Lx Hr. rewrite (residual_comp nm (m_forward M p) mesh declared_names (declared_forward p mesh)) by assumption. now rewrite comp_row.
Qed.
Lemma residual_length : forall x, List.length x = num_implicit_var nm -> List.length (residual nm (m_forward M p) mesh x) = num_implicit_res nm.
Proof.
  intros x Lx. destruct (C34_residual nm (m_forward M p) mesh x declared_names (declared_forward p mesh) Lx) as (ds & di & sd & out & res & _ & _ & _ & E & L & _). unfold residual. now rewrite E.
Qed.
Hypothesis T : twice_differentiable M con.
Lemma row_smooth : forall r, (r < num_implicit_res nm)%nat -> exists H, is_hessian (ns + ni) (row_value r) H.
Proof.
  intros r Hr. pose proof (nres nm) as NR. change (nm "states") with (m_states M) in *. change (nm "con_outputs") with con in *. change (nm "residuals") with (m_residuals M) in *. fold ns in NR. destruct (T p mesh) as [A B]. unfold row_value.
  destruct (Nat.ltb_spec r ns); [|destruct (Nat.ltb_spec r (ns + List.length con))].
  - apply A. apply nth_In. assumption.
  - apply B. left. apply nth_In. lia.
  - apply B. right. apply nth_In. lia.
Qed.
Lemma residual_smooth : forall r, (r < num_implicit_res nm)%nat -> exists H, is_hessian (num_implicit_var nm) (fun x => vget r (residual nm (m_forward M p) mesh x)) H.
Proof.
  intros r Hr. destruct (row_smooth r Hr) as [H HH]. pose proof (nvar nm declared_names) as NV. change (nm "states") with (m_states M) in *. change (nm "inputs") with (m_inputs M) in *. fold ns ni in NV.
  destruct (is_hessian_firstn (ns + ni) (num_implicit_var nm) (row_value r) H ltac:(lia) HH) as [K HK].
  destruct (lin nm r) as [q|] eqn:EQ.
  - eexists. eapply is_hessian_ext; [|apply (is_hessian_plus _ _ _ _ _ HK (is_hessian_scal _ _ (-1) _ (is_hessian_coord (num_implicit_var nm) q)))]. intros x Lx. rewrite residual_row, EQ by assumption. cbn beta. ring.
  - exists K. eapply is_hessian_ext; [|exact HK]. intros x Lx. rewrite residual_row, EQ by assumption. cbn beta. ring.
Qed.
Lemma residual_hessians : exists Hs, forall r, (r < num_implicit_res nm)%nat -> is_hessian (num_implicit_var nm) (fun x => vget r (residual nm (m_forward M p) mesh x)) (Hs r).
Proof. apply (finite_choice _ (fun r H => is_hessian (num_implicit_var nm) (fun x => vget r (residual nm (m_forward M p) mesh x)) H) (fun _ _ _ => 0)). exact residual_smooth. Qed.
Lemma residual_jacobian : exists J, is_jacobian (num_implicit_var nm) (num_implicit_res nm) (residual nm (m_forward M p) mesh) J.
Proof.
  destruct (finite_choice _ (fun r g => is_gradient (num_implicit_var nm) (fun x => vget r (residual nm (m_forward M p) mesh x)) g) (fun _ _ => 0) (num_implicit_res nm)) as [G HG].
  - intros r Hr. destruct (residual_smooth r Hr) as (H & g & Hg & _). now exists g.
  - exists (fun x i j => G i x j). intros x i j Lx Hi Hj. now apply HG.
Qed.
Lemma lagrangian_rows : forall l x, List.length l = num_implicit_res nm -> List.length x = num_implicit_var nm ->
  vdot l (residual nm (m_forward M p) mesh x) = rsum (map (fun r => vget r l * vget r (residual nm (m_forward M p) mesh x)) (seq 0 (num_implicit_res nm))).
Proof. intros l x Ll Lx. rewrite vdot_rsum by (rewrite residual_length; congruence). now rewrite residual_length. Qed.
Lemma lagrangian_hessian : forall l, List.length l = num_implicit_res nm -> exists H, is_hessian (num_implicit_var nm) (fun x => vdot l (residual nm (m_forward M p) mesh x)) H.
Proof.
  intros l Ll. destruct residual_hessians as [Hs HH]. eexists. eapply is_hessian_ext; [|apply (is_hessian_sum _ (fun r x => vget r l * vget r (residual nm (m_forward M p) mesh x)) (fun r x i j => vget r l * Hs r x i j) (seq 0 (num_implicit_res nm)))].
  - intros x Lx. symmetry. now apply lagrangian_rows.
  - intros r Hr. apply in_seq in Hr. apply (is_hessian_scal _ (fun x => vget r (residual nm (m_forward M p) mesh x))). apply HH. lia.
Qed.
(** the hessian of the Lagrangian vanishes outside the declared structure, whatever its gradient is called *)
Lemma lagrangian_zero : forall l g x i j, List.length l = num_implicit_res nm -> is_gradient (num_implicit_var nm) (fun x => vdot l (residual nm (m_forward M p) mesh x)) g ->
  List.length x = num_implicit_var nm -> (i < num_implicit_var nm)%nat -> (j < num_implicit_var nm)%nat -> ~ (nonlinear nm i /\ nonlinear nm j) -> pderiv (fun y => g y i) x j 0.
Proof.
  intros l g x i j Ll G Lx Hi Hj N.
  destruct (finite_choice _ (fun r h => is_gradient (num_implicit_var nm) (fun x => vget r (residual nm (m_forward M p) mesh x)) h) (fun _ _ => 0) (num_implicit_res nm)) as [Gs HG].
  { intros r Hr. destruct (residual_smooth r Hr) as (H & h & Hg & _). now exists h. }
  apply pderiv_ext_len with (f := fun y => rsum (map (fun r => vget r l * Gs r y i) (seq 0 (num_implicit_res nm)))).
  - intros y Ly. assert (List.length y = num_implicit_var nm) as Ly' by congruence. eapply pderiv_unique; [|apply (G y i Ly' Hi)].
    eapply pderiv_ext_len; [intros z Lz; symmetry; apply lagrangian_rows; [assumption|congruence]|].
    apply (pderiv_rsum (fun r z => vget r l * vget r (residual nm (m_forward M p) mesh z)) (fun r => vget r l * Gs r y i)). intros r Hr. apply in_seq in Hr. apply (pderiv_scal (fun z => vget r (residual nm (m_forward M p) mesh z))). apply HG; [lia|assumption|assumption].
  - eapply pderiv_eq; [|apply (pderiv_rsum (fun r y => vget r l * Gs r y i) (fun r => vget r l * 0))].
    + induction (seq 0 (num_implicit_res nm)) as [|a s IH]; [reflexivity|]. cbn [map rsum]. rewrite IH. ring.
    + intros r Hr. apply in_seq in Hr. apply (pderiv_scal (fun y => Gs r y i)). apply (C34_hessian_complete nm (m_forward M p) mesh r (Gs r) x i j declared_names (declared_forward p mesh)); try assumption; [lia|]. apply HG. lia.
Qed.
End Row.
