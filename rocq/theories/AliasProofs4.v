(** C69: the calls on one problem, and whole programs. *)
From Verif Require Import Base RBase NlpModel AliasModel AliasSpec AliasProofs AliasProofs2 AliasProofs3.
From Coq Require Import Lia.
Open Scope nat_scope.

Definition fits (A B A' B' S' : list nat) (k : nat) (w w' : world) : Prop :=
  footprint A' B' k w w' /\ (forall i, In i A' -> i < w_nc w) /\ (forall i, In i B' -> i < w_no w) /\
  (forall i, In i (refs (hp_cons (w_prob w' k))) ->
    In i A' /\ (In i (refs (hp_cons (w_prob w k))) \/ ~ In i A) /\ safe w' S' (Some k) (hc_in (w_con w' i)) /\ safe w' S' None (hc_con (w_con w' i))) /\
  (forall i, In i (refs (hp_objs (w_prob w' k))) -> In i B' /\ (In i (refs (hp_objs (w_prob w k))) \/ ~ In i B) /\ safe w' S' (Some k) (ho_in (w_obj w' i))) /\
  NoDup (refs (hp_cons (w_prob w' k))) /\ NoDup (refs (hp_objs (w_prob w' k))).

(** the outcome of a call in both worlds *)
Definition outcome (A' B' S' : list nat) (r : result world) (rv : result values) : Prop :=
  match r with Ok w' => exists v', rv = Ok v' /\ sep A' B' S' w' /\ agree A' B' w' v' | Raise e => rv = Raise e end.

Lemma op_prob : forall A B S A' B' S' w v k f r, sep A B S w -> agree A B w v -> k < w_np w -> incl A A' -> incl B B' -> incl S S' ->
  match r with Ok w' => fits A B A' B' S' k w w' /\ f (view_prob w (w_prob w k)) = Ok (view_prob w' (w_prob w' k)) | Raise e => f (view_prob w (w_prob w k)) = Raise e end ->
  outcome A' B' S' r (on_prob v k f).
Proof.
  intros A B S A' B' S' w v k f r Hs Ha Hk HA HB HS H. unfold on_prob, outcome. rewrite (pick_some _ _ _ _ (a_prob _ _ _ _ Ha k Hk)). cbn [bind].
  destruct r as [w'|e]; [|now rewrite H]. destruct H as [(Hf & H1 & H2 & H3 & H4 & H5 & H6) E]. rewrite E. cbn [bind]. eexists. split; [reflexivity|]. split.
  - eapply sep_step with (k := k); eassumption.
  - eapply agree_step; eassumption.
Qed.

(** the object of problem [k] itself changes, its pieces do not *)
Lemma footprint_prob : forall A B k w p, hp_scales p = scl w k -> footprint A B k w (put_prob w k p).
Proof.
  intros A B k w p Hp. constructor; worlds; try reflexivity; try lia.
  - intros q Hq. now apply put_other.
  - left. unfold scl. worlds. now rewrite put_same.
Qed.
Lemma safe_prob : forall w S k p o a, hp_scales p = scl w k -> safe w S o a -> safe (put_prob w k p) S o a.
Proof.
  intros w S k p o a Hp (H1 & H2 & H3). split; [assumption|]. split; [|assumption]. intros q Hq Ho. unfold scl. worlds.
  destruct (Nat.eq_dec q k) as [->|Hn]; [rewrite put_same, Hp|rewrite put_other by assumption]; now apply H2.
Qed.
Lemma fits_prob : forall A B S k w p, sep A B S w -> k < w_np w -> hp_scales p = scl w k ->
  (forall i, In i (refs (hp_cons p)) -> In i (refs (hp_cons (w_prob w k)))) -> (forall i, In i (refs (hp_objs p)) -> In i (refs (hp_objs (w_prob w k)))) ->
  NoDup (refs (hp_cons p)) -> NoDup (refs (hp_objs p)) -> fits A B A B S k w (put_prob w k p).
Proof.
  intros A B S k w p Hs Hk Hp Hc Ho Nc No. split; [now apply footprint_prob|]. split; [apply Hs|]. split; [apply Hs|]. worlds. rewrite put_same.
  split; [|split; [|now split]].
  - intros i Hi. destruct (s_pc _ _ _ _ Hs k i Hk (Hc i Hi)) as (? & ? & ?). split; [assumption|]. split; [left; auto|]. split; apply safe_prob; assumption.
  - intros i Hi. destruct (s_po _ _ _ _ Hs k i Hk (Ho i Hi)) as (? & ?). split; [assumption|]. split; [left; auto|]. apply safe_prob; assumption.
Qed.
Lemma view_put_prob : forall w k p q, view_prob (put_prob w k p) q = view_prob w q.
Proof. reflexivity. Qed.

Lemma cons_mv : forall w p, p_cons (view_prob w p) = mv (fun i => view_con w (w_con w i)) (hp_cons p).
Proof. reflexivity. Qed.
Lemma objs_mv : forall w p, p_objs (view_prob w p) = mv (fun i => view_obj w (w_obj w i)) (hp_objs p).
Proof. reflexivity. Qed.

Lemma step_del_con : forall A B S w v k n, sep A B S w -> agree A B w v -> k < w_np w ->
  outcome A B S (hdelete_constraints w k n) (on_prob v k (fun p => delete_constraints p n)).
Proof.
  intros A B S w v k n Hs Ha Hk. eapply op_prob; try eassumption; try apply incl_refl. unfold hdelete_constraints, delete_constraints. rewrite cons_mv, mv_dmem.
  destruct (dmem n (hp_cons (w_prob w k))); [|reflexivity]. split.
  - apply fits_prob; try assumption; try reflexivity; cbn [hp_set_cons hp_cons hp_objs].
    + intros i. apply refs_ddel.
    + trivial.
    + apply nodup_ddel. now apply (s_ndc _ _ _ _ Hs).
    + now apply (s_ndo _ _ _ _ Hs).
  - rewrite view_put_prob. worlds. rewrite put_same. f_equal. rewrite <- mv_ddel. reflexivity.
Qed.
Lemma step_del_obj : forall A B S w v k n, sep A B S w -> agree A B w v -> k < w_np w ->
  outcome A B S (hdelete_objective w k n) (on_prob v k (fun p => delete_objective p n)).
Proof.
  intros A B S w v k n Hs Ha Hk. eapply op_prob; try eassumption; try apply incl_refl. unfold hdelete_objective, delete_objective. rewrite objs_mv, mv_dmem.
  destruct (dmem n (hp_objs (w_prob w k))); [|reflexivity]. split.
  - apply fits_prob; try assumption; try reflexivity; cbn [hp_set_objs hp_cons hp_objs].
    + trivial.
    + intros i. apply refs_ddel.
    + now apply (s_ndc _ _ _ _ Hs).
    + apply nodup_ddel. now apply (s_ndo _ _ _ _ Hs).
  - rewrite view_put_prob. worlds. rewrite put_same. f_equal. rewrite <- mv_ddel. reflexivity.
Qed.

Lemma step_triu : forall A B S w v k g, sep A B S w -> agree A B w v -> k < w_np w ->
  (forall p, g p = set_triu p (p_triu (g p))) ->
  outcome A B S (Ok (put_prob w k (hp_set_triu (w_prob w k) (p_triu (g (view_prob w (w_prob w k))))))) (on_prob v k (fun p => Ok (g p))).
Proof.
  intros A B S w v k g Hs Ha Hk Hg. eapply op_prob; try eassumption; try apply incl_refl. split.
  - apply fits_prob; try assumption; try reflexivity; cbn [hp_set_triu hp_cons hp_objs]; trivial; [now apply (s_ndc _ _ _ _ Hs)|now apply (s_ndo _ _ _ _ Hs)].
  - rewrite view_put_prob. worlds. rewrite put_same. f_equal. rewrite Hg. reflexivity.
Qed.
Lemma hstructure_triu : forall p, fst (prob_hessianstructure p) = set_triu p (p_triu (fst (prob_hessianstructure p))).
Proof. intros p. unfold prob_hessianstructure. destruct (hstackl (hess_rows p)); [destruct (hstackl (hess_cols p))|]; cbn [fst]; now destruct p. Qed.
Lemma hessian_triu : forall x lam f p, fst (prob_hessian p x lam f) = set_triu p (p_triu (fst (prob_hessian p x lam f))).
Proof.
  intros x lam f p. unfold prob_hessian. destruct (p_triu p) eqn:E.
  - cbn [fst]. rewrite E. destruct p; cbn in *; now rewrite E.
  - pose proof (hstructure_triu p) as H. destruct (prob_hessianstructure p) as [p' [r|e]]; cbn [fst] in *; exact H.
Qed.

(** adding *)
Lemma step_add_con : forall A B S w v k n i, sep A B S w -> agree A B w v -> k < w_np w -> i < w_nc w -> ~ In i A ->
  outcome (i :: A) B S (hadd_constraints w k n i) (on_prob v k (fun p => add_constraints p n (view_con w (w_con w i)))).
Proof.
  intros A B S w v k n i Hs Ha Hk Hi Hn. eapply op_prob; try eassumption; try apply incl_refl; [apply incl_tl, incl_refl|].
  unfold hadd_constraints, add_constraints. rewrite cons_mv, mv_dmem. destruct (dmem n (hp_cons (w_prob w k))) eqn:Em; [reflexivity|].
  change (c_nin (view_con w (w_con w i))) with (c_nin (hc_v (w_con w i))). change (p_n (view_prob w (w_prob w k))) with (hp_n (w_prob w k)).
  destruct (negb _); [reflexivity|]. change (p_scales (view_prob w (w_prob w k))) with (w_arr w (hp_scales (w_prob w k))). fold (scl w k).
  pose proof (hset_in_spec w i (scl w k)) as Hsp. destruct (hset_input_scales w i (scl w k)) as [w1|e]; cbn [fmap]; [|unfold view_con; now rewrite Hsp].
  destruct Hsp as (c' & -> & Ein & Econ & Ev). unfold view_con at 1. rewrite Ev. cbn [bind].
  assert (Hni : ~ In i (refs (hp_cons (w_prob w k)))) by (intros Hx; apply Hn; now apply (s_pc _ _ _ _ Hs k)).
  split.
  - split; [|split; [|split; [|split; [|split; [|split]]]]].
    + constructor; worlds; try reflexivity; try lia.
      * intros q Hq. now apply put_other.
      * left. unfold scl. worlds. now rewrite put_same.
      * intros j Hj Hnj. apply put_other. intros ->. apply Hnj. now left.
      * intros q j Hq Hqk Hj. apply put_other. intros ->. apply Hn. now apply (s_pc _ _ _ _ Hs q).
    + intros j [<-|Hj]; [assumption|]. now apply (s_A _ _ _ _ Hs).
    + apply Hs.
    + worlds. rewrite put_same. cbn [hp_set_cons hp_cons]. rewrite refs_dset_new by assumption. intros j Hj. apply in_app_or in Hj.
      assert (Hsafe : forall o a, safe w S o a -> safe (put_prob (put_con w i c') k (hp_set_cons (w_prob w k) (dset n i (hp_cons (w_prob w k))))) S o a).
      { intros o a Hx. apply (safe_prob (put_con w i c')); [reflexivity|exact Hx]. }
      destruct Hj as [Hj|[<-|[]]].
      * destruct (s_pc _ _ _ _ Hs k j Hk Hj) as (? & ? & ?). rewrite put_other by (intros ->; contradiction). split; [now right|]. split; [now left|]. split; now apply Hsafe.
      * rewrite put_same, Ein, Econ. split; [now left|]. split; [now right|]. destruct (s_con _ _ _ _ Hs i Hi Hn). split; apply Hsafe; [|assumption].
        split; [now apply (s_scl _ _ _ _ Hs)|]. split.
        -- intros q Hq Hqk E. apply Hqk. f_equal. now apply (s_sinj _ _ _ _ Hs).
        -- intros u Hu _ E. symmetry in E. revert E. now apply (s_sclu _ _ _ _ Hs).
    + worlds. rewrite put_same. cbn [hp_set_cons hp_objs]. intros j Hj. destruct (s_po _ _ _ _ Hs k j Hk Hj) as (? & ?). split; [assumption|]. split; [now left|].
      apply (safe_prob (put_con w i c')); [reflexivity|assumption].
    + worlds. rewrite put_same. cbn [hp_set_cons hp_cons]. rewrite refs_dset_new by assumption. apply NoDup_snoc; [now apply (s_ndc _ _ _ _ Hs)|assumption].
    + worlds. rewrite put_same. cbn [hp_set_cons hp_objs]. now apply (s_ndo _ _ _ _ Hs).
  - rewrite view_put_prob. worlds. rewrite put_same. f_equal. unfold NlpModel.set_cons, view_prob. cbn [hp_set_cons hp_n hp_cons hp_objs hp_triu hp_scales p_n p_objs p_triu p_scales p_cons].
    f_equal. change (map _ (dset n i (hp_cons (w_prob w k)))) with (mv (fun j => view_con (put_con w i c') (w_con (put_con w i c') j)) (dset n i (hp_cons (w_prob w k)))).
    rewrite mv_dset. worlds. rewrite put_same. f_equal. apply mv_ext. intros j Hj. rewrite put_other; [reflexivity|]. intros ->. contradiction.
Qed.

Lemma step_add_obj : forall A B S w v k n i, sep A B S w -> agree A B w v -> k < w_np w -> i < w_no w -> ~ In i B ->
  outcome A (i :: B) S (hadd_objective w k n i) (on_prob v k (fun p => add_objective p n (view_obj w (w_obj w i)))).
Proof.
  intros A B S w v k n i Hs Ha Hk Hi Hn. eapply op_prob; try eassumption; try apply incl_refl; [apply incl_tl, incl_refl|].
  unfold hadd_objective, add_objective. rewrite objs_mv, mv_dmem. destruct (dmem n (hp_objs (w_prob w k))) eqn:Em; [reflexivity|].
  change (p_scales (view_prob w (w_prob w k))) with (w_arr w (hp_scales (w_prob w k))). fold (scl w k).
  pose proof (hoset_in_spec w i (scl w k)) as Hsp. destruct (hobj_set_input_scales w i (scl w k)) as [w1|e]; cbn [fmap]; [|unfold view_obj; now rewrite Hsp].
  destruct Hsp as (c' & -> & Ein & Ev). unfold view_obj at 1. rewrite Ev. cbn [bind].
  assert (Hni : ~ In i (refs (hp_objs (w_prob w k)))) by (intros Hx; apply Hn; now apply (s_po _ _ _ _ Hs k)).
  split.
  - split; [|split; [|split; [|split; [|split; [|split]]]]].
    + constructor; worlds; try reflexivity; try lia.
      * intros q Hq. now apply put_other.
      * left. unfold scl. worlds. now rewrite put_same.
      * intros j Hj Hnj. apply put_other. intros ->. apply Hnj. now left.
      * intros q j Hq Hqk Hj. apply put_other. intros ->. apply Hn. now apply (s_po _ _ _ _ Hs q).
    + apply Hs.
    + intros j [<-|Hj]; [assumption|]. now apply (s_B _ _ _ _ Hs).
    + worlds. rewrite put_same. cbn [hp_set_objs hp_cons]. intros j Hj. destruct (s_pc _ _ _ _ Hs k j Hk Hj) as (? & ? & ?). split; [assumption|]. split; [now left|].
      split; (apply (safe_prob (put_obj w i c')); [reflexivity|assumption]).
    + worlds. rewrite put_same. cbn [hp_set_objs hp_objs]. rewrite refs_dset_new by assumption. intros j Hj. apply in_app_or in Hj.
      assert (Hsafe : forall o a, safe w S o a -> safe (put_prob (put_obj w i c') k (hp_set_objs (w_prob w k) (dset n i (hp_objs (w_prob w k))))) S o a).
      { intros o a Hx. apply (safe_prob (put_obj w i c')); [reflexivity|exact Hx]. }
      destruct Hj as [Hj|[<-|[]]].
      * destruct (s_po _ _ _ _ Hs k j Hk Hj) as (? & ?). rewrite put_other by (intros ->; contradiction). split; [now right|]. split; [now left|]. now apply Hsafe.
      * rewrite put_same, Ein. split; [now left|]. split; [now right|]. apply Hsafe.
        split; [now apply (s_scl _ _ _ _ Hs)|]. split.
        -- intros q Hq Hqk E. apply Hqk. f_equal. now apply (s_sinj _ _ _ _ Hs).
        -- intros u Hu _ E. symmetry in E. revert E. now apply (s_sclu _ _ _ _ Hs).
    + worlds. rewrite put_same. cbn [hp_set_objs hp_cons]. now apply (s_ndc _ _ _ _ Hs).
    + worlds. rewrite put_same. cbn [hp_set_objs hp_objs]. rewrite refs_dset_new by assumption. apply NoDup_snoc; [now apply (s_ndo _ _ _ _ Hs)|assumption].
  - rewrite view_put_prob. worlds. rewrite put_same. f_equal. unfold NlpModel.set_objs, view_prob. cbn [hp_set_objs hp_n hp_cons hp_objs hp_triu hp_scales p_n p_objs p_triu p_scales p_cons].
    f_equal. change (map _ (dset n i (hp_objs (w_prob w k)))) with (mv (fun j => view_obj (put_obj w i c') (w_obj (put_obj w i c') j)) (dset n i (hp_objs (w_prob w k)))).
    rewrite mv_dset. worlds. rewrite put_same. f_equal. apply mv_ext. intros j Hj. rewrite put_other; [reflexivity|]. intros ->. contradiction.
Qed.
