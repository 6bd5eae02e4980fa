(** The algebra constraints of all stages, on the vectors whose stages are in the domain. *)
From Verif Require Import Base RBase UtilsModel UtilsProofs CollocProofs OcpProofs2 OcpProofs3 NlpModel NlpSpec NlpProofs NlpProofs2 NlpProps ConvModel ConvSpec ConvProps LocSpec LocProofs.
Import ListNotations.

Section D.
Context {P : Type}.
Variables (u : unitp P) (op : dvo) (nmesh : list R) (scale_fn : list R -> R) (p : P).
Hypothesis Hw : u_nin u = num_var_stage op.
Hypothesis Hs : (0 < num_var_stage op)%nat.
Hypothesis Hm : List.length nmesh = num_stages op.
Hypothesis Sh : unit_shapes u.
Hypothesis MF : mesh_free u scale_fn.
Let s := num_var_stage op.
Let n := num_stages op.
Let nc := u_ncon u.
Variable Dw : nat -> list R -> Prop.
(** every stage is in its domain *)
Definition stages_in (x : list R) : Prop := forall k, (k < n)%nat -> Dw k (stage_window op k x).
Hypothesis RM : forall k, (k < n)%nat -> roomy (u_nin u) (Dw k).
Lemma stages_roomy : roomy (num_dec op) stages_in.
Proof using RM Hw Hs Hm Sh MF p.
  intros x q L HD Hq. destruct (Nat.lt_ge_cases q (n * s)) as [Lt|Ge].
  - set (k := (q / s)%nat). assert (s <> 0)%nat as S0 by (unfold s; lia). assert (k < n)%nat as Hk by (apply Nat.div_lt_upper_bound; lia). assert (q = k * s + q mod s)%nat as Eq by (unfold k; rewrite Nat.mul_comm; now apply Nat.div_mod). pose proof (Nat.mod_upper_bound q s S0) as Mq.
    destruct (RM k Hk (stage_window op k x) (q - k * s)%nat) as (e & He & HE); [now apply (wl u op nmesh scale_fn p Hw Hs Hm Sh MF)|now apply HD|rewrite Hw; fold s; lia|]. exists e. split; [assumption|]. intros t Ht k' Hk'.
    unfold stage_window. fold s. destruct (Nat.eq_dec k' k) as [->|Ne].
    + rewrite window_upd_in by lia. apply HE. unfold stage_window. fold s. rewrite firstn_vget by lia. rewrite skipn_vget. replace (k * s + (q - k * s))%nat with q by lia. assumption.
    + rewrite window_upd_out; [now apply HD|]. destruct (Nat.lt_ge_cases k' k); [right|left]; nia.
  - exists 1. split; [lra|]. intros t _ k' Hk'. unfold stage_window. fold s. rewrite window_upd_out; [now apply HD|]. right. nia.
Qed.

Let f (x : list R) := ok_or_nil (conv_constraints u op nmesh scale_fn p x).
Let mpk (k : nat) (x : list R) : R := vget k nmesh * scale_fn x.
Hypothesis UJ : forall k x, (k < n)%nat -> List.length x = num_dec op -> jacobian_on (Dw k) (u_nin u) (u_ncon u) (fun w => u_f u w (mpk k x) p) (fun w => tri (fst (u_js u)) (snd (u_js u)) (u_j u w (mpk k x) p)).

Lemma conv_jacobian_on : exists js hs, conv_structs u op = Ok (js, hs) /\
  jacobian_on stages_in (num_dec op) (n * nc) f (fun x => tri (fst js) (snd js) (ok_or_nil (conv_jacobian u op nmesh scale_fn p x))).
Proof using Hw Hs Hm Sh MF UJ RM p.
  pose proof Sh as (S1 & S2 & S3 & S4 & S5 & S6 & S7 & S8 & S9). unfold conv_structs. rewrite !offset_concat by apply num_stages_pos. cbn [bind]. eexists. eexists. split; [reflexivity|]. cbn [fst snd]. fold n s nc.
  intros x r q L HD Hr Hq. assert (nc <> 0)%nat as Hnc by (intro E; rewrite E in Hr; lia). set (k := (r / nc)%nat). set (i := (r mod nc)%nat).
  assert (r = k * nc + i)%nat as Er by (unfold k, i; rewrite Nat.mul_comm; apply Nat.div_mod; assumption). assert (i < nc)%nat as Hi by (apply Nat.mod_upper_bound; assumption). assert (k < n)%nat as Hk by (apply Nat.div_lt_upper_bound; lia).
  assert (forall y, List.length y = num_dec op -> vget r (f y) = vget i (u_f u (stage_window op k y) (mp nmesh scale_fn k x) p)) as FE.
  { intros y Ly. destruct (C35_constraints P u op nmesh scale_fn p y Hw Hs Hm Ly ltac:(intros; now apply S1)) as (c & Ec & Lc & Hc). unfold f. rewrite Ec. cbn [ok_or_nil]. rewrite (f_frozen2 u op nmesh scale_fn p Hw Hs Hm Sh MF k x y). unfold vget at 1 2. specialize (Hc k i Hk Hi). fold nc in Hc. rewrite <- Er in Hc. change (vget k nmesh * scale_fn y) with (mp nmesh scale_fn k y) in Hc.
    destruct (nth_error c r) as [v|] eqn:Ev; [|apply nth_error_None in Ev; rewrite Lc in Ev; fold n nc in Ev; lia]. rewrite (nth_error_nth _ _ _ Ev). symmetry. apply nth_error_nth. now rewrite <- Hc. }
  eapply pderiv_ext_len; [intros y Ly; symmetry; apply FE; congruence|].
  rewrite (jacobian_eq u op nmesh scale_fn p Hw Hs Hm x L). cbn [ok_or_nil]. fold n.
  assert (forall k, (k < n)%nat -> List.length (stage_window op k x) = u_nin u) as WL by (intros; now apply (wl u op nmesh scale_fn p Hw Hs Hm Sh MF)).
  assert (k * s + s <= num_dec op)%nat as EN by (now apply (enough u op nmesh scale_fn p Hw Hs Hm Sh MF)).
  rewrite (tri_cmap nat (fun k => map (fun r0 => (r0 + k * nc)%nat) (fst (u_js u))) (fun k => map (fun c => (c + k * s)%nat) (snd (u_js u))) (fun k => u_j u (stage_window op k x) (mp nmesh scale_fn k x) p)).
  2:{ intros k' Hk'. apply in_seq in Hk'. rewrite !map_length. split; [assumption|]. symmetry. apply S2. apply WL. lia. }
  rewrite (rsum_single_in _ k n Hk).
  - rewrite tri_block. replace (Nat.leb (k * nc) r) with true by (symmetry; apply Nat.leb_le; lia). replace (r - k * nc)%nat with i by lia. cbn [andb].
    apply (pderiv_window (fun w => vget i (u_f u w (mp nmesh scale_fn k x) p)) s k x q); [congruence|rewrite L; assumption| |].
    + intros Hin. replace (Nat.leb (k * s) q) with true by (symmetry; apply Nat.leb_le; lia). apply (UJ k x Hk L); [apply (WL k Hk)|now apply HD|assumption|rewrite Hw; fold s; lia].
    + intros Hout. destruct (Nat.leb_spec (k * s) q); [|reflexivity]. apply tri_zero_col. apply Forall_forall. intros c Hc. rewrite Forall_forall in S7. specialize (S7 c Hc). rewrite Hw in S7. fold s in S7. lia.
  - intros k' Hk' Hne. rewrite tri_block. destruct (Nat.leb_spec (k' * nc) r); cbn [andb]; [|reflexivity]. destruct (Nat.leb (k' * s) q); [|reflexivity]. apply tri_zero_row. apply Forall_forall. intros r0 Hr0. rewrite Forall_forall in S6. specialize (S6 r0 Hr0). fold nc in S6. nia.
Qed.

Variable T : nat -> nat -> Prop.
Hypothesis UH : forall k x l, (k < n)%nat -> List.length x = num_dec op -> List.length l = u_ncon u ->
  hessian_on (Dw k) T (u_nin u) (fun w => vdot l (u_f u w (mpk k x) p)) (fun w => tri (fst (u_hs u)) (snd (u_hs u)) (u_h u w l (mpk k x) p)).
Lemma conv_hessian_on : forall lam, shift_ok T -> List.length lam = (n * nc)%nat -> exists js hs, conv_structs u op = Ok (js, hs) /\
  hessian_on stages_in T (num_dec op) (fun x => vdot lam (f x)) (fun x => tri (fst hs) (snd hs) (ok_or_nil (conv_hessian u op nmesh scale_fn p x lam))).
Proof using Hw Hs Hm Sh MF UH UJ RM p.
  intros lam HT Ll. pose proof Sh as (S1 & S2 & S3 & S4 & S5 & S6 & S7 & S8 & S9). unfold conv_structs. rewrite !offset_concat by apply num_stages_pos. cbn [bind]. eexists. eexists. split; [reflexivity|]. cbn [fst snd]. fold n s nc.
  assert (forall k, (k < n)%nat -> List.length (lam_k u k lam) = nc) as LK by (intros k Hk; unfold lam_k; fold nc; rewrite firstn_length, skipn_length; nia).
  assert (forall k x, List.length x = num_dec op -> (k < n)%nat -> List.length (stage_window op k x) = u_nin u) as WL by (intros; now apply (wl u op nmesh scale_fn p Hw Hs Hm Sh MF)).
  assert (forall k, (k < n)%nat -> (k * s + s <= num_dec op)%nat) as EN by (intros; now apply (enough u op nmesh scale_fn p Hw Hs Hm Sh MF)).
  assert (forall k, In k (seq 0 n) -> hessian_on stages_in T (num_dec op) (fun x => vdot (lam_k u k lam) (u_f u (stage_window op k x) (mp nmesh scale_fn k x) p))
     (fun x i j => tri (map (fun r => (r + k * s)%nat) (fst (u_hs u))) (map (fun c => (c + k * s)%nat) (snd (u_hs u))) (u_h u (stage_window op k x) (lam_k u k lam) (mp nmesh scale_fn k x) p) i j)) as HK.
  { intros k Hk. apply in_seq in Hk. assert (k < n)%nat as Hk' by lia. set (z := repeat 0 (num_dec op)). set (m0 := mp nmesh scale_fn k z). destruct (UH k z (lam_k u k lam) Hk' (repeat_length _ _) (LK k Hk')) as (g & G1 & _). change (mpk k z) with m0 in G1.
    assert (forall m y, (exists x, m = mp nmesh scale_fn k x) -> u_f u y m p = u_f u y m0 p) as EF by (intros m y [x ->]; apply (f_frozen2 u op nmesh scale_fn p Hw Hs Hm Sh MF)).
    exists (fun x j => if (Nat.leb (k * s) j && Nat.ltb j (k * s + s))%bool then g (stage_window op k x) (j - k * s)%nat else 0). split.
    - intros x j L HD Hj. eapply pderiv_ext_len with (f := fun y => vdot (lam_k u k lam) (u_f u (stage_window op k y) m0 p)); [intros y Ly; now rewrite (EF (mp nmesh scale_fn k y)) by eauto|].
      apply (pderiv_window (fun w => vdot (lam_k u k lam) (u_f u w m0 p)) s k x j); [congruence|rewrite L; now apply EN| |].
      + intros Hin. replace (Nat.leb (k * s) j) with true by (symmetry; apply Nat.leb_le; lia). replace (Nat.ltb j (k * s + s)) with true by (symmetry; apply Nat.ltb_lt; lia). cbn [andb]. apply G1; [now apply (WL k x L)|now apply HD|rewrite Hw; fold s; lia].
      + intros Hout. destruct (Nat.leb_spec (k * s) j), (Nat.ltb_spec j (k * s + s)); try reflexivity. lia.
    - intros x j q L HD Hj Hq HP. rewrite tri_block. destruct (Nat.leb_spec (k * s) j) as [J1|J1]; cbn [andb]; [|exact (pderiv_const _ _ _)]. destruct (Nat.ltb_spec j (k * s + s)) as [J2|J2].
      + apply (pderiv_window (fun w => g w (j - k * s)%nat) s k x q); [congruence|rewrite L; now apply EN| |].
        * intros Hin. replace (Nat.leb (k * s) q) with true by (symmetry; apply Nat.leb_le; lia).
          destruct (UH k x (lam_k u k lam) Hk' L (LK k Hk')) as (g' & G1' & G2'). change (mpk k x) with (mp nmesh scale_fn k x) in G1', G2'.
          apply (pderiv_dom (Dw k) (fun y => g' y (j - k * s)%nat) _ (u_nin u)); [now apply RM|now apply WL|now apply HD|rewrite Hw; fold s; lia| |].
          { intros y Ly HDy. apply (gradient_on_unique (Dw k) (u_nin u) (fun x0 => vdot (lam_k u k lam) (u_f u x0 m0 p)) g' g); [|assumption|assumption|assumption|rewrite Hw; fold s; lia]. intros z' j' Lz HDz Hj'. eapply pderiv_ext; [|apply G1'; assumption]. intro z''. cbn beta. now rewrite (EF (mp nmesh scale_fn k x)) by eauto. }
          apply G2'; [now apply (WL k x L)|now apply HD|rewrite Hw; fold s; lia|rewrite Hw; fold s; lia|]. apply (HT _ _ (k * s)%nat). replace (j - k * s + k * s)%nat with j by lia. replace (q - k * s + k * s)%nat with q by lia. assumption.
        * intros Hout. destruct (Nat.leb_spec (k * s) q); [|reflexivity]. apply tri_zero_col. apply Forall_forall. intros c Hc. rewrite Forall_forall in S9. specialize (S9 c Hc). rewrite Hw in S9. fold s in S9. lia.
      + eapply pderiv_eq; [|exact (pderiv_const 0 _ _)]. destruct (Nat.leb (k * s) q); [|reflexivity]. symmetry. apply tri_zero_row. apply Forall_forall. intros c Hc. rewrite Forall_forall in S8. specialize (S8 c Hc). rewrite Hw in S8. fold s in S8. lia. }
  eapply (hd_ext _ _ _ stages_roomy); [| |exact (hd_sum stages_in T (num_dec op) nat _ _ (seq 0 n) HK)].
  - intros x L _. cbn beta. unfold f. rewrite (f_eq u op nmesh scale_fn p Hw Hs Hm Sh MF) by assumption. symmetry. fold n. rewrite (vdot_blocks nc); [reflexivity| |assumption]. intros i Hi. apply S1. now apply (WL i x L).
  - intros x i j L _ HP. cbn beta. rewrite (hessian_eq u op nmesh scale_fn p Hw Hs Hm x lam L Ll). cbn [ok_or_nil].
    symmetry. apply (tri_cmap nat (fun k => map (fun r0 => (r0 + k * s)%nat) (fst (u_hs u))) (fun k => map (fun c => (c + k * s)%nat) (snd (u_hs u))) (fun k => u_h u (stage_window op k x) (lam_k u k lam) (mp nmesh scale_fn k x) p)).
    intros k' Hk'. apply in_seq in Hk'. rewrite !map_length. split; [assumption|]. symmetry. apply S3; [apply (WL k' x L); lia|apply LK; lia].
Qed.
End D.
