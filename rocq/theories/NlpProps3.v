(** C14, C16 (continued): the gradient of the whole problem and the default (dense) structure. *)
From Verif Require Import Base RBase UtilsModel NlpModel NlpProofs NlpProofs2 NlpSpec NlpProps.

(** *** C14: the structure assumed when none is given is the row-major dense one *)
Lemma tri_row : forall n a r (v : list R) i j, List.length v = n ->
  tri (map (fun _ => r) (seq a n)) (seq a n) v i j = if (Nat.eqb r i && Nat.leb a j && Nat.ltb j (a + n))%bool then vget (j - a) v else 0.
Proof.
  intros n; induction n as [|n IH]; intros a r v i j Hv.
  - cbn [seq map tri]. rewrite <- Bool.andb_assoc. replace (Nat.leb a j && Nat.ltb j (a + 0))%bool with false; [now rewrite Bool.andb_false_r|].
    symmetry. destruct (Nat.leb_spec a j), (Nat.ltb_spec j (a + 0)); try reflexivity; lia.
  - destruct v as [|x v]; [discriminate|]. injection Hv as Hv. cbn [seq map tri]. rewrite IH by assumption.
    destruct (Nat.eqb_spec r i); cbn [andb]; [|lra].
    destruct (Nat.eqb_spec a j) as [->|].
    + replace (Nat.leb (S j) j) with false by (symmetry; apply Nat.leb_gt; lia). replace (Nat.leb j j) with true by (symmetry; apply Nat.leb_le; lia).
      replace (Nat.ltb j (j + S n)) with true by (symmetry; apply Nat.ltb_lt; lia). cbn [andb]. rewrite Nat.sub_diag. unfold vget. cbn [nth]. lra.
    + destruct (Nat.leb_spec (S a) j).
      * replace (Nat.leb a j) with true by (symmetry; apply Nat.leb_le; lia). replace (a + S n)%nat with (S a + n)%nat by lia. cbn [andb].
        destruct (Nat.ltb j (S a + n)); [|lra]. replace (j - a)%nat with (S (j - S a)) by lia. unfold vget. cbn [nth]. lra.
      * replace (Nat.leb a j) with false by (symmetry; apply Nat.leb_gt; lia). cbn [andb]. lra.
Qed.

Lemma tri_dense_from : forall m n b (v : list R) i j, List.length v = (m * n)%nat -> (b <= i < b + m)%nat -> (j < n)%nat ->
  tri (flat_map (fun i => map (fun _ => i) (seq 0 n)) (seq b m)) (flat_map (fun _ => seq 0 n) (seq b m)) v i j = vget ((i - b) * n + j) v.
Proof.
  intros m; induction m as [|m IH]; intros n b v i j Hv Hi Hj; [lia|]. cbn [seq flat_map].
  rewrite <- (firstn_skipn n v) at 1.
  assert (List.length (firstn n v) = n) as H1 by (rewrite firstn_length, Hv; nia).
  assert (List.length (skipn n v) = m * n)%nat as H2 by (rewrite skipn_length, Hv; nia).
  rewrite tri_app by (rewrite ?map_length, ?seq_length; auto). rewrite tri_row by assumption.
  destruct (Nat.eqb_spec b i) as [->|].
  - replace (Nat.ltb j (0 + n)) with true by (symmetry; apply Nat.ltb_lt; lia). cbn [Nat.leb andb].
    rewrite tri_zero_row. + rewrite Nat.sub_diag, Nat.mul_0_l, Nat.sub_0_r, Rplus_0_r, Nat.add_0_l.
      unfold vget. rewrite <- (firstn_skipn n v) at 2. rewrite app_nth1 by lia. reflexivity.
    + apply Forall_flat_map, Forall_forall. intros r Hr. apply in_seq in Hr. apply Forall_forall. intros r' Hr'. apply in_map_iff in Hr' as (? & <- & _). lia.
  - cbn [andb]. rewrite IH by lia. rewrite Rplus_0_l. unfold vget. rewrite <- (firstn_skipn n v) at 2. rewrite app_nth2 by (rewrite H1; nia).
    f_equal. rewrite H1. replace (i - b)%nat with (S (i - S b)) by lia. nia.
Qed.

Lemma dense_len : forall m n, List.length (fst (dense_structure m n)) = (m * n)%nat /\ List.length (snd (dense_structure m n)) = (m * n)%nat.
Proof.
  intros m n. unfold dense_structure. cbn [fst snd]. generalize 0%nat at 2 4 as b.
  induction m as [|m IH]; intro b; [split; reflexivity|]. cbn [seq flat_map]. rewrite !app_length, map_length, seq_length. destruct (IH (S b)) as [-> ->]. split; lia.
Qed.
Lemma dense_in : forall m n, Forall (fun r => (r < m)%nat) (fst (dense_structure m n)) /\ Forall (fun c => (c < n)%nat) (snd (dense_structure m n)).
Proof.
  intros m n. unfold dense_structure. cbn [fst snd]. split; apply Forall_flat_map, Forall_forall; intros i Hi; apply in_seq in Hi; apply Forall_forall; intros k Hk.
  - apply in_map_iff in Hk as (? & <- & _). lia.
  - apply in_seq in Hk. lia.
Qed.
Lemma tri_dense : forall m n v i j, List.length v = (m * n)%nat -> (i < m)%nat -> (j < n)%nat ->
  tri (fst (dense_structure m n)) (snd (dense_structure m n)) v i j = vget (i * n + j) v.
Proof. intros. unfold dense_structure. cbn [fst snd]. rewrite tri_dense_from by (auto; lia). now rewrite Nat.sub_0_r. Qed.

(** Without a structure argument, [jacobian] must return the m * n entries row by row.  Then construction succeeds, and after any
    rescaling history the declared structure with the returned values is the exact jacobian of [constraints]. *)
Theorem C14_default_structure : forall nin ncon f j h,
  (forall x, List.length x = nin -> List.length (f x) = ncon /\ List.length (j x) = (ncon * nin)%nat) ->
  (forall x l, List.length x = nin -> List.length l = ncon -> List.length (h x l) = (nin * nin)%nat) ->
  is_jacobian nin ncon f (fun x i k => vget (i * nin + k) (j x)) ->
  exists c0, make_con nin ncon f j h None None = Ok c0 /\
    c_f c0 = f /\ c_j c0 = j /\
    forall ops c, Forall (sop_ok nin ncon) ops -> foldM apply_sop ops c0 = Ok c ->
      Forall (fun v => v <> 0) (last_in (ones nin) ops) -> Forall (fun v => v <> 0) (last_con (ones ncon) ops) ->
      is_jacobian nin ncon (con_constraints c) (fun x => tri (c_jr c) (c_jc c) (con_jacobian c x)).
Proof.
  intros nin ncon f j h Hf Hh D.
  destruct (dense_len ncon nin) as [LJ1 LJ2]. destruct (dense_len nin nin) as [LH1 LH2]. destruct (dense_in ncon nin) as [BJ1 BJ2]. destruct (dense_in nin nin) as [BH1 BH2].
  unfold make_con at 1. set (c00 := {| c_nin := nin |}).
  assert (con_wf c00) as W0.
  { constructor; cbn [c00 c_nin c_ncon c_f c_j c_h c_jr c_jc c_hr c_hc]; try assumption; try congruence; intros; try (apply Hf; assumption); rewrite ?LJ1, ?LH1; auto; now apply Hf. }
  assert (make_con nin ncon f j h None None = Ok (rescaled c00 (ones nin) (ones ncon))) as Em.
  { unfold make_con. fold c00. rewrite update_jac_ok by (auto; apply repeat_length). cbn [bind].
    unfold update_hess_scales. cbn [with_js c_in c_hr c_hc c00]. rewrite gather_vget by (unfold ones; rewrite repeat_length; assumption). cbn [bind]. rewrite gather_vget by (unfold ones; rewrite repeat_length; assumption).
    cbn [bind]. unfold vmul. rewrite map2_map_l, map2_map_r, map_map2. reflexivity. }
  eexists. split; [exact Em|]. split; [reflexivity|]. split; [reflexivity|]. intros ops c Hops Hrun Ni Nc.
  assert (con_wf (rescaled c00 (ones nin) (ones ncon))) as W1 by (destruct W0; constructor; assumption).
  eapply (C14_scaled_jacobian nin ncon f j h None None _ ops c Em W1 Hops Hrun Ni Nc).
  intros x i k Hx Hi Hk. unfold rescaled. cbn [c_jr c_jc c00]. rewrite tri_dense by (try assumption; now apply Hf). now apply D.
Qed.
Print Assumptions C14_default_structure.

Example C14_default_structure_nonvacuous : is_jacobian 2 1 (fun x => [vget 0 x + 3 * vget 1 x]) (fun x i k => vget (i * 2 + k) [1; 3]) /\
  fst (dense_structure 2 3) = [0; 0; 0; 1; 1; 1]%nat /\ snd (dense_structure 2 3) = [0; 1; 2; 0; 1; 2]%nat.
Proof.
  split; [|split; reflexivity]. intros x i k Hx Hi Hk. assert (i = 0)%nat as -> by lia. destruct x as [|a [|b [|? ?]]]; try discriminate.
  unfold pderiv, vget. destruct k as [|[|k]]; [| |lia]; cbn [upd nth Nat.mul Nat.add].
  - apply dlim_ext with (f := fun t => 1 * t + 3 * b); [intro; lra|apply dlim_lin].
  - apply dlim_ext with (f := fun t => 3 * t + a); [intro; lra|apply dlim_lin].
Qed.

(** *** C16: the gradient of the problem is the gradient of its objective *)
Lemma fold_vadd : forall n (l : list (list R)) g, List.length g = n -> Forall (fun v => List.length v = n) l ->
  List.length (fold_left vadd l g) = n /\ forall j, vget j (fold_left vadd l g) = vget j g + rsum (map (vget j) l).
Proof.
  intros n l; induction l as [|a l IH]; intros g Hg Hl; cbn [fold_left map rsum]; [split; [assumption|intro; lra]|].
  inversion Hl; subst. destruct (IH (vadd g a)) as [HA HB]; [unfold vadd; rewrite map2_length; congruence|congruence|]. split; [congruence|]. intro j. rewrite HB.
  assert (vget j (vadd g a) = vget j g + vget j a) as ->; [|lra].
  unfold vget, vadd. destruct (Nat.lt_ge_cases j (List.length g)) as [Hj|Hj].
  - apply map2_nth; congruence.
  - rewrite !nth_overflow; try lia; [lra|rewrite map2_length; lia].
Qed.

Theorem C16_gradient : forall n p, reachable n p -> p_objs p <> [] ->
  (forall o, In o (values (p_objs p)) -> is_gradient n (o_f o) (fun x j => vget j (o_g o x))) ->
  exists F G, (forall x, List.length x = n -> prob_objective p x = Ok (F x) /\ prob_gradient p x = Ok (G x) /\ List.length (G x) = n /\
      F x = rsum (map (fun o => o_f o (vmul x (p_scales p))) (values (p_objs p)))) /\
    is_gradient n F (fun x j => vget j (G x)).
Proof.
  intros n p H Hne D. destruct (reachable_inv n p H) as [I E].
  assert (forall o, In o (values (p_objs p)) -> obj_wf n o /\ o = orescaled o (p_scales p)) as Q.
  { intros o Ho. apply in_map_iff in Ho as ([k o'] & <- & Hin). pose proof (pi_o p I) as F. rewrite Forall_forall in F. destruct (F _ Hin) as [W Eo]. cbn [snd] in *. rewrite E in W. auto. }
  assert (List.length (p_scales p) = n) as Ls by (rewrite (pi_s p I); exact E).
  set (os := values (p_objs p)) in *. assert (os <> []) as Hos by (intro C; apply Hne; unfold os, values in C; now apply map_eq_nil in C).
  exists (fun x => rsum (map (fun o => obj_objective o x) os)), (fun x => match map (fun o => obj_gradient o x) os with [] => [] | g :: gs => fold_left vadd gs g end).
  assert (forall x o, List.length x = n -> In o os -> List.length (obj_gradient o x) = n) as GL.
  { intros x o Hx Ho. destruct (Q o Ho) as [W Eo]. rewrite Eo. unfold obj_gradient. cbn [o_g o_in orescaled]. rewrite vmul_length by (rewrite (ow_g n o W); [congruence|rewrite vmul_length; congruence]).
    apply (ow_g n o W). rewrite vmul_length; congruence. }
  assert (forall x j, List.length x = n -> vget j (match map (fun o => obj_gradient o x) os with [] => [] | g :: gs => fold_left vadd gs g end) = rsum (map (fun o => vget j (obj_gradient o x)) os) /\
     List.length (match map (fun o => obj_gradient o x) os with [] => [] | g :: gs => fold_left vadd gs g end) = n) as GV.
  { intros x j Hx. destruct os as [|o r]; [congruence|]. cbn [map rsum]. destruct (fold_vadd n (map (fun o => obj_gradient o x) r) (obj_gradient o x)) as [L V].
    - apply GL; [assumption|now left]. - apply Forall_map, Forall_forall. intros o' Ho'. apply GL; [assumption|now right].
    - split; [|exact L]. rewrite V. f_equal. now rewrite map_map. }
  split.
  - intros x Hx. split; [|split; [|split; [exact (proj2 (GV x 0%nat Hx))|]]].
    + unfold prob_objective. fold os. rewrite hstackl_ne by (intro C; apply Hos; now apply map_eq_nil in C). cbn [fmap]. f_equal. clear. induction os as [|o r IH]; [reflexivity|]. cbn [map concat app rsum]. now rewrite IH.
    + unfold prob_gradient. fold os. destruct os as [|o r]; [congruence|reflexivity].
    + f_equal. apply map_ext_in. intros o Ho. destruct (Q o Ho) as [_ Eo]. unfold obj_objective. rewrite Eo at 2. reflexivity.
  - intros x j Hx Hj. eapply pderiv_eq; [symmetry; exact (proj1 (GV x j Hx))|]. apply (pderiv_rsum obj_objective). intros o Ho. destruct (Q o Ho) as [W Eo].
    pose proof (obj_is_gradient n o (p_scales p) W Ls (D o Ho)) as G. rewrite <- Eo in G. now apply G.
Qed.
Print Assumptions C16_gradient.

Example C16_gradient_nonvacuous : p_objs (prun (make_prob 2) (ex_ops ++ [PAddO "o2" ex_obj])) <> [] /\ List.length (p_objs (prun (make_prob 2) (ex_ops ++ [PAddO "o2" ex_obj]))) = 2%nat /\
  forall o, In o (values (p_objs (prun (make_prob 2) (ex_ops ++ [PAddO "o2" ex_obj])))) -> is_gradient 2 (o_f o) (fun x j => vget j (o_g o x)).
Proof.
  split; [discriminate|]. split; [reflexivity|]. intros o Ho. simpl in Ho.
  assert (is_gradient 2 (fun x => vget 0 x) (fun x j => vget j [1; 0])) as K.
  { intros x j Hx Hj. destruct x as [|a [|b [|? ?]]]; try discriminate. unfold pderiv, vget. destruct j as [|[|j]]; [| |lia]; cbn [upd nth].
    - apply dlim_ext with (f := fun t => 1 * t + 0); [intro; lra|apply dlim_lin].
    - apply dlim_const. }
  destruct Ho as [<-|[<-|[]]]; exact K.
Qed.
(** A problem without constraints has no constraint values, jacobian or jacobian structure; without objectives no objective value and no gradient; with
    neither no hessian structure: each of these is a ValueError (so a problem has to have at least one of both before it can be solved). *)
Theorem C16_empty : forall p x, (p_cons p = [] -> prob_constraints p x = Raise ValueError /\ prob_jacobian p x = Raise ValueError /\ prob_jacobianstructure p = Raise ValueError) /\
  (p_objs p = [] -> prob_objective p x = Raise ValueError /\ prob_gradient p x = Raise ValueError) /\
  (p_cons p = [] -> p_objs p = [] -> prob_hessianstructure p = (p, Raise ValueError)).
Proof.
  intros p x. unfold prob_constraints, prob_jacobian, prob_jacobianstructure, prob_objective, prob_gradient, prob_hessianstructure, hess_rows, hess_cols. repeat split; intros; repeat match goal with E : _ p = [] |- _ => rewrite E; clear E end; reflexivity.
Qed.
Print Assumptions C16_empty.
