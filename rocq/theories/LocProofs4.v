(** The rows of the model algebra on the domain. *)
From Verif Require Import Base RBase TreeModel UtilsModel UtilsProofs IoModel OcpModel AlgModel AlgSpec AlgProofs AlgProps NlpModel OcpProofs OcpProofs2 ConvModel BuildModel BuildSpec CBuildSpec JaxModel JaxSpec JaxProofs LocSpec LocJaxSpec LocProofs LocProofs3.
Import ListNotations.
Open Scope R_scope.

Notation ALL := (fun _ _ : nat => True).
Lemma hessian_on_firstn : forall n N (D : list R -> Prop) f H, (n <= N)%nat -> (forall x, D (firstn n x) <-> D x) -> hessian_on D ALL n f H -> exists K, hessian_on D ALL N (fun y => f (firstn n y)) K.
Proof.
  intros n N D f H L E (g & G & HH). exists (fun y i j => if andb (Nat.ltb i n) (Nat.ltb j n) then H (firstn n y) i j else 0), (fun y i => if Nat.ltb i n then g (firstn n y) i else 0). split.
  - intros x j Lx HD Hj. destruct (Nat.ltb_spec j n) as [A|A]; [apply pderiv_firstn; [assumption|]; apply G; [rewrite firstn_length; lia|now apply E|assumption]|now apply pderiv_firstn_out].
  - intros x i j Lx HD Hi Hj _. destruct (Nat.ltb_spec i n) as [A|A]; cbn [andb]; [|exact (pderiv_const _ _ _)]. destruct (Nat.ltb_spec j n) as [B|B]; [|now apply (pderiv_firstn_out n (fun w => g w i))].
    apply (pderiv_firstn n (fun w => g w i)); [assumption|]. apply HH; [rewrite firstn_length; lia|now apply E|assumption|assumption|exact I].
Qed.
Lemma hd_coord : forall (D : list R -> Prop) n k, hessian_on D ALL n (vget k) (fun _ _ _ => 0).
Proof. intros D n k. exists (fun _ j => if Nat.eqb k j then 1 else 0). split; [intros x j Lx _ Hj; apply pderiv_coord; lia|]. intros x i j Lx _ Hi Hj _. exact (pderiv_const _ _ _). Qed.

Section Row.
Context {P : Type}.
Variables (M : smodel P) (con : list string) (dom : R -> dict R -> dict R -> Prop) (p : P) (mesh : R).
Hypothesis DO : declared_ok M con.
Hypothesis OD : open_domain M dom.
Let nm := names_of M con.
Let ns := List.length (m_states M).
Let ni := List.length (m_inputs M).
Let D := within M dom mesh.
Let f := residual nm (m_forward M p) mesh.
Let nin := num_implicit_var nm.
Let nres := num_implicit_res nm.
Let HN := declared_names M con DO.
Lemma nin_ge : (ns + ni <= nin)%nat.
Proof using DO. pose proof (nvar nm HN) as NV. change (nm "states") with (m_states M) in NV. change (nm "inputs") with (m_inputs M) in NV. fold ns ni nin in NV. lia. Qed.
Lemma D_firstn : forall x, D (firstn (ns + ni) x) <-> D x.
Proof using. clear. intro x. apply (within_firstn M dom). Qed.
Lemma D_roomy : roomy nin D.
Proof using DO OD. apply (roomy_firstn (ns + ni)); [exact nin_ge|exact D_firstn|exact (OD mesh)]. Qed.

(** outside the declared structure the second derivatives of a residual vanish on the domain *)
Lemma hessian_complete_on : forall r g x j k, (r < nres)%nat -> gradient_on D nin (fun y => vget r (f y)) g -> List.length x = nin -> D x -> (j < nin)%nat -> (k < nin)%nat -> ~ (nonlinear nm j /\ nonlinear nm k) -> pderiv (fun y => g y j) x k 0.
Proof using DO OD.
  intros r g x j k Hr HG L HD Hj Hk H. pose proof (fun m => declared_forward M con DO p m) as HF. unfold nonlinear in H. rewrite !(belongs_iff nm HN) in H by (unfold flat_groups; cbn; tauto). unfold off in H. cbn [String.eqb Ascii.eqb Bool.eqb] in H.
  change (nm "states") with (m_states M) in H. change (nm "inputs") with (m_inputs M) in H. fold ns ni in H.
  destruct (Nat.lt_ge_cases j (ns + ni)) as [H1|H1].
  - assert (ns + ni <= k)%nat as H2 by lia. assert (j <> k) as Hne by lia.
    assert (forall t, D (upd k t x)) as DT by (intro t; apply D_firstn; rewrite firstn_upd_out by assumption; now apply D_firstn).
    assert (forall t, g (upd k t x) j = g x j) as GC.
    { intro t. pose proof (HG (upd k t x) j ltac:(now rewrite upd_length) (DT t) Hj) as D1. pose proof (HG x j L HD Hj) as D2. unfold pderiv in D1, D2. rewrite vget_upd_other in D1 by assumption.
      assert (forall s, vget r (f (upd j s (upd k t x))) = vget r (f (upd j s x)) + - (match lin nm r with Some q => vget q (upd k t x) - vget q x | None => 0 end))%R as ES.
      { intro s. unfold f. rewrite !(residual_comp nm (m_forward M p) mesh HN (HF mesh)) by (try assumption; now rewrite !upd_length).
        assert (forall v g, g = "states" \/ g = "inputs" -> part nm g (upd j s (upd k t v)) = part nm g (upd j s v)) as PP.
        { intros v g0 Hg0. replace (upd j s (upd k t v)) with (upd k t (upd j s v)).
          - apply part_upd; [exact HN|]. right. destruct Hg0 as [->| ->]; [change (0 + ns <= k)%nat|change (ns + ni <= k)%nat]; lia.
          - clear -Hne. revert j k Hne. induction v as [|a v IH]; intros [|j] [|k] Hne; simpl; try reflexivity; [lia|]. f_equal. apply IH. lia. }
        rewrite !PP by auto. pose proof (lin_iff nm r) as LI. destruct (lin nm r) as [q|]; [|lra]. assert (q <> j) as Hq.
        { change (nm "states") with (m_states M) in LI. change (nm "inputs") with (m_inputs M) in LI. fold ns ni in LI. destruct (r <? _)%nat; [|discriminate]. injection LI as ->. lia. }
        rewrite !(vget_upd_other q j) by assumption. lra. }
      apply (dlim_unique _ _ _ _ D1). apply dlim_ext with (f := (fun s => vget r (f (upd j s x)) + - (match lin nm r with Some q => vget q (upd k t x) - vget q x | None => 0 end))%R); [intro s; symmetry; apply ES|].
      replace (g x j) with (g x j + 0)%R by lra. apply (dlim_plus _ (fun _ => - (match lin nm r with Some q => vget q (upd k t x) - vget q x | None => 0 end))%R); [exact D2|apply dlim_const]. }
    unfold pderiv. apply dlim_ext with (f := fun _ => g x j); [intro t; symmetry; apply GC|apply dlim_const].
  - apply (pderiv_dom D (fun _ => match lin nm r with Some q => if Nat.eqb q j then -1 else 0 | None => 0 end) _ nin); [exact D_roomy|assumption|assumption|assumption| |exact (pderiv_const _ _ _)].
    intros y Ly HDy. eapply pderiv_unique; [|apply (HG y j Ly HDy Hj)]. apply (residual_pderiv_lin nm (m_forward M p) mesh y r j HN (HF mesh) Ly Hr). split; [exact H1|exact Hj].
Qed.

Hypothesis T : twice_differentiable_on M dom con p.
Lemma residual_smooth_on : forall r, (r < nres)%nat -> exists H, hessian_on D ALL nin (fun x => vget r (f x)) H.
Proof using DO OD T.
  intros r Hr. assert (exists H, hessian_on D ALL (ns + ni) (row_value M con p mesh r) H) as [H HH].
  { pose proof (AlgProofs.nres nm) as NR. change (nm "states") with (m_states M) in *. change (nm "con_outputs") with con in *. change (nm "residuals") with (m_residuals M) in *. fold nres ns in NR. destruct (T mesh) as [A B]. fold D ns ni in A, B. unfold row_value. fold ns.
    destruct (Nat.ltb_spec r ns); [|destruct (Nat.ltb_spec r (ns + List.length con))].
    - apply A. apply nth_In. assumption.
    - apply B. left. apply nth_In. lia.
    - apply B. right. apply nth_In. lia. }
  destruct (hessian_on_firstn (ns + ni) nin D (row_value M con p mesh r) H nin_ge D_firstn HH) as [K HK].
  destruct (lin nm r) as [q|] eqn:EQ.
  - eexists. eapply (hd_ext _ _ _ D_roomy); [|reflexivity|apply (hd_plus _ _ _ _ _ _ _ HK (hd_scal _ _ _ _ (-1) _ (hd_coord D nin q)))]. intros x Lx _. unfold f, nm. rewrite (residual_row M con p mesh DO) by assumption. fold nm. rewrite EQ. cbn beta. fold ns ni. ring.
  - exists K. eapply (hd_ext _ _ _ D_roomy); [|reflexivity|exact HK]. intros x Lx _. unfold f, nm. rewrite (residual_row M con p mesh DO) by assumption. fold nm. rewrite EQ. cbn beta. fold ns ni. ring.
Qed.
Lemma residual_jacobian_on : exists J, jacobian_on D nin nres f J.
Proof using DO OD T.
  destruct (finite_choice _ (fun r g => gradient_on D nin (fun x => vget r (f x)) g) (fun _ _ => 0) nres) as [G HG].
  - intros r Hr. destruct (residual_smooth_on r Hr) as (H & g & Hg & _). now exists g.
  - exists (fun x i j => G i x j). intros x i j Lx HD Hi Hj. now apply HG.
Qed.
Lemma lagrangian_rows_on : forall l x, List.length l = nres -> List.length x = nin -> vdot l (f x) = rsum (map (fun r => vget r l * vget r (f x)) (seq 0 nres)).
Proof using DO. clear OD T. intros l x Ll Lx. exact (lagrangian_rows M con p mesh DO l x Ll Lx). Qed.
Lemma lagrangian_hessian_on : forall l, List.length l = nres -> exists H, hessian_on D ALL nin (fun x => vdot l (f x)) H.
Proof using DO OD T.
  intros l Ll. destruct (finite_choice _ (fun r H => hessian_on D ALL nin (fun x => vget r (f x)) H) (fun _ _ _ => 0) nres residual_smooth_on) as [Hs HH].
  eexists. eapply (hd_ext _ _ _ D_roomy); [| |apply (hd_sum D ALL nin nat (fun r x => vget r l * vget r (f x)) (fun r x i j => vget r l * Hs r x i j) (seq 0 nres))].
  - intros x Lx _. symmetry. now apply lagrangian_rows_on.
  - intros x i j _ _ _. cbv beta. reflexivity.
  - intros r Hr. apply in_seq in Hr. apply (hd_scal D ALL nin (fun x => vget r (f x))). apply HH. lia.
Qed.
Lemma lagrangian_zero_on : forall l g x i j, List.length l = nres -> gradient_on D nin (fun x => vdot l (f x)) g -> List.length x = nin -> D x -> (i < nin)%nat -> (j < nin)%nat -> ~ (nonlinear nm i /\ nonlinear nm j) -> pderiv (fun y => g y i) x j 0.
Proof using DO OD T.
  intros l g x i j Ll G Lx HD Hi Hj N.
  destruct (finite_choice _ (fun r h => gradient_on D nin (fun x => vget r (f x)) h) (fun _ _ => 0) nres) as [Gs HG].
  { intros r Hr. destruct (residual_smooth_on r Hr) as (H & h & Hg & _). now exists h. }
  apply (pderiv_dom D (fun y => rsum (map (fun r => vget r l * Gs r y i) (seq 0 nres))) _ nin); [exact D_roomy|assumption|assumption|assumption| |].
  - intros y Ly HDy. eapply pderiv_unique; [|apply (G y i Ly HDy Hi)].
    eapply pderiv_ext_len; [intros z Lz; symmetry; apply lagrangian_rows_on; [assumption|congruence]|].
    apply (pderiv_rsum (fun r z => vget r l * vget r (f z)) (fun r => vget r l * Gs r y i)). intros r Hr. apply in_seq in Hr. apply (pderiv_scal (fun z => vget r (f z))). apply HG; [lia|assumption|assumption|assumption].
  - eapply pderiv_eq; [|apply (pderiv_rsum (fun r y => vget r l * Gs r y i) (fun r => vget r l * 0))].
    + induction (seq 0 nres) as [|a s IH]; [reflexivity|]. cbn [map rsum]. rewrite IH. ring.
    + intros r Hr. apply in_seq in Hr. apply (pderiv_scal (fun y => Gs r y i)). apply (hessian_complete_on r (Gs r) x i j); try assumption; [lia|]. apply HG. lia.
Qed.
End Row.
