(** C69: the pieces of a problem and its scales, over all programs. *)
From Verif Require Import Base RBase NlpModel NlpProofs AliasModel AliasSpec AliasProofs AliasProofs2 AliasProofs3 AliasProofs4 AliasProofs5.
From Coq Require Import Lia.
Open Scope R_scope.

Lemma gather_is : forall a idx l, gather a idx = Ok l -> l = map (fun i => vget i a) idx.
Proof. intros a idx l H. pose proof (gather_vget a idx (gather_ok_inv _ _ _ _ H)) as E. congruence. Qed.
Lemma map2_maps : forall (A B C D E : Type) (h : C -> D -> E) (f : A -> C) (g : B -> D) l m, map2 h (map f l) (map g m) = map2 (fun x y => h (f x) (g y)) l m.
Proof. intros A B C D E h f g l; induction l as [|x l IH]; intros [|y m]; cbn; try reflexivity. now rewrite IH. Qed.
Lemma map_map2 : forall (A B C D : Type) (h : C -> D) (f : A -> B -> C) l m, map h (map2 f l m) = map2 (fun x y => h (f x y)) l m.
Proof. intros A B C D h f l; induction l as [|x l IH]; intros [|y m]; cbn; try reflexivity. now rewrite IH. Qed.

Lemma ujs_is : forall c v, update_jac_scales c = Ok v ->
  v = with_js c (map2 (fun r q => vget r (c_con c) / vget q (c_in c)) (c_jr c) (c_jc c)).
Proof.
  intros c v H. unfold update_jac_scales in H. destruct (gather (c_con c) (c_jr c)) as [a|] eqn:E1; [|discriminate]. cbn [bind] in H.
  destruct (gather (c_in c) (c_jc c)) as [b|] eqn:E2; [|discriminate]. cbn [bind] in H. injection H as <-. f_equal.
  rewrite (gather_is _ _ _ E1), (gather_is _ _ _ E2). unfold vdiv. apply map2_maps.
Qed.
Lemma uhs_is : forall c v, update_hess_scales c = Ok v ->
  v = with_hs c (map2 (fun r q => 1 / (vget r (c_in c) * vget q (c_in c))) (c_hr c) (c_hc c)).
Proof.
  intros c v H. unfold update_hess_scales in H. destruct (gather (c_in c) (c_hr c)) as [a|] eqn:E1; [|discriminate]. cbn [bind] in H.
  destruct (gather (c_in c) (c_hc c)) as [b|] eqn:E2; [|discriminate]. cbn [bind] in H. injection H as <-. f_equal.
  rewrite (gather_is _ _ _ E1), (gather_is _ _ _ E2). unfold vmul. rewrite map2_maps. apply map_map2.
Qed.
Lemma set_in_sync : forall c s v, set_input_scales c s = Ok v -> c_in v = s /\ derived v.
Proof.
  intros c s v H. unfold set_input_scales in H. destruct (update_jac_scales (with_in c s)) as [v1|] eqn:E; [|discriminate]. cbn [bind] in H.
  apply ujs_is in E. apply uhs_is in H. subst. split; [reflexivity|]. split; reflexivity.
Qed.
Lemma oset_in_sync : forall o s v, obj_set_input_scales o s = Ok v -> o_in v = s /\ o_hs v = map2 (fun r q => 1 / (vget r (o_in v) * vget q (o_in v))) (o_hr v) (o_hc v).
Proof.
  intros o s v H. unfold obj_set_input_scales, obj_update_hess_scales in H. cbn [o_in o_hr o_hc] in H.
  destruct (gather s (o_hr o)) as [a|] eqn:E1; [|discriminate]. cbn [bind] in H. destruct (gather s (o_hc o)) as [b|] eqn:E2; [|discriminate]. cbn [bind] in H.
  injection H as <-. cbn [o_in o_hs o_hr o_hc]. split; [reflexivity|]. rewrite (gather_is _ _ _ E1), (gather_is _ _ _ E2). unfold vmul. rewrite map2_maps. apply map_map2.
Qed.
Lemma set_con_sync : forall c s v, derived c -> set_con_scales c s = Ok v -> c_in v = c_in c /\ derived v.
Proof. intros c s v [_ Hh] H. apply ujs_is in H. subst. split; [reflexivity|]. split; [reflexivity|exact Hh]. Qed.

Lemma in_dset : forall V n k (x y : V) d, In (k, y) (dset n x d) -> (k = n /\ y = x) \/ In (k, y) d.
Proof.
  intros V n k x y d; induction d as [|[m z] r IH]; cbn; [intros [E|[]]; left; split; congruence|]. destruct (String.eqb_spec n m) as [->|Hn]; cbn.
  - intros [E|H]; [left; split; congruence|right; now right].
  - intros [E|H]; [right; now left|]. destruct (IH H) as [?|?]; [now left|right; now right].
Qed.
Lemma in_ddel : forall V n k (y : V) d, In (k, y) (ddel n d) -> In (k, y) d.
Proof. intros V n k y d; induction d as [|[m z] r IH]; cbn; [tauto|]. destruct (String.eqb n m); cbn; [tauto|]. intros [E|H]; [now left|right; now apply IH]. Qed.
Lemma in_mapM : forall A B (f : A -> result B) l m y, mapM f l = Ok m -> In y m -> exists x, In x l /\ f x = Ok y.
Proof.
  intros A B f l; induction l as [|x r IH]; intros m y H Hy; cbn in H; [injection H as <-; destruct Hy|].
  destruct (f x) as [b|] eqn:E; [|discriminate]. destruct (mapM f r) as [bs|] eqn:Er; [|discriminate]. injection H as <-.
  destruct Hy as [<-|Hy]; [exists x; split; [now left|assumption]|]. destruct (IH bs y eq_refl Hy) as (x' & ? & ?). exists x'. split; [now right|assumption].
Qed.

Lemma sync_add_con : forall p n c p', in_sync p -> add_constraints p n c = Ok p' -> in_sync p'.
Proof.
  intros p n c p' [Hc Ho] H. unfold add_constraints in H. destruct (dmem n (p_cons p)); [discriminate|]. destruct (negb _); [discriminate|].
  destruct (set_input_scales c (p_scales p)) as [c'|] eqn:E; [|discriminate]. cbn [bind] in H. injection H as <-. apply set_in_sync in E. split; [|exact Ho].
  intros m x Hx. cbn [NlpModel.set_cons p_cons p_scales] in *. apply in_dset in Hx. destruct Hx as [[-> ->]|Hx]; [exact E|now apply (Hc m)].
Qed.
Lemma sync_add_obj : forall p n c p', in_sync p -> add_objective p n c = Ok p' -> in_sync p'.
Proof.
  intros p n c p' [Hc Ho] H. unfold add_objective in H. destruct (dmem n (p_objs p)); [discriminate|].
  destruct (obj_set_input_scales c (p_scales p)) as [c'|] eqn:E; [|discriminate]. cbn [bind] in H. injection H as <-. apply oset_in_sync in E. split; [exact Hc|].
  intros m x Hx. cbn [set_objs p_objs p_scales] in *. apply in_dset in Hx. destruct Hx as [[-> ->]|Hx]; [exact E|now apply (Ho m)].
Qed.
Lemma sync_del_con : forall p n p', in_sync p -> delete_constraints p n = Ok p' -> in_sync p'.
Proof.
  intros p n p' [Hc Ho] H. unfold delete_constraints in H. destruct (dmem n (p_cons p)); [|discriminate]. injection H as <-. split; [|exact Ho].
  intros m x Hx. cbn [NlpModel.set_cons p_cons p_scales] in *. apply in_ddel in Hx. now apply (Hc m).
Qed.
Lemma sync_del_obj : forall p n p', in_sync p -> delete_objective p n = Ok p' -> in_sync p'.
Proof.
  intros p n p' [Hc Ho] H. unfold delete_objective in H. destruct (dmem n (p_objs p)); [|discriminate]. injection H as <-. split; [exact Hc|].
  intros m x Hx. cbn [set_objs p_objs p_scales] in *. apply in_ddel in Hx. now apply (Ho m).
Qed.
Lemma sync_scales : forall p s p', set_dec_var_scales p s = Ok p' -> in_sync p'.
Proof.
  intros p s p' H. unfold set_dec_var_scales in H. destruct (mapM _ (p_objs p)) as [os|] eqn:Eo; [|discriminate]. cbn [bind] in H.
  destruct (mapM _ (p_cons p)) as [cs|] eqn:Ec; [|discriminate]. cbn [bind] in H. injection H as <-. split; cbn [p_cons p_objs p_scales]; intros m x Hx.
  - destruct (in_mapM _ _ _ _ _ _ Ec Hx) as ([m0 c0] & _ & E). cbn [fst snd] in E. destruct (set_input_scales c0 s) as [c'|] eqn:E1; [|discriminate]. cbn [fmap] in E.
    injection E as <- <-. now apply set_in_sync in E1.
  - destruct (in_mapM _ _ _ _ _ _ Eo Hx) as ([m0 c0] & _ & E). cbn [fst snd] in E. destruct (obj_set_input_scales c0 s) as [c'|] eqn:E1; [|discriminate]. cbn [fmap] in E.
    injection E as <- <-. now apply oset_in_sync in E1.
Qed.
Lemma sync_scale_one : forall p n s p', in_sync p -> scale_one p n s = Ok p' -> in_sync p'.
Proof.
  intros p n s p' [Hc Ho] H. unfold scale_one, lookup_err in H. destruct (dget n (p_cons p)) as [c|] eqn:E; [|discriminate]. cbn [bind] in H.
  destruct (set_con_scales c s) as [c'|] eqn:E1; [|discriminate]. cbn [bind] in H. injection H as <-. split; [|exact Ho].
  destruct (Hc n c (dget_in _ _ _ _ E)) as [H1 H2]. destruct (set_con_sync _ _ _ H2 E1) as [H3 H4].
  intros m x Hx. cbn [NlpModel.set_cons p_cons p_scales] in *. apply in_dset in Hx. destruct Hx as [[-> ->]|Hx]; [split; [congruence|assumption]|now apply (Hc m)].
Qed.
Lemma sync_triu : forall p m, in_sync p -> in_sync (set_triu p m).
Proof. intros p m H. exact H. Qed.

Lemma replace_forall : forall A (P : A -> Prop) l i x, Forall P l -> P x -> Forall P (replace l i x).
Proof. intros A P l; induction l as [|y r IH]; intros [|i] x H Hx; cbn; auto; inversion H; subst; constructor; auto. Qed.
Lemma on_prob_sync : forall v k f v', Forall in_sync (v_prob v) -> (forall p p', in_sync p -> f p = Ok p' -> in_sync p') -> on_prob v k f = Ok v' -> Forall in_sync (v_prob v').
Proof.
  intros v k f v' H Hf E. unfold on_prob, pick in E. destruct (nth_error (v_prob v) k) as [p|] eqn:En; [|discriminate]. cbn [bind] in E.
  destruct (f p) as [p'|] eqn:Ef; [|discriminate]. cbn [bind] in E. injection E as <-. cbn [v_prob]. apply replace_forall; [assumption|]. eapply Hf; [|eassumption].
  rewrite Forall_forall in H. apply H. eapply nth_error_In; eassumption.
Qed.
Lemma on_con_sync : forall v k f v', Forall in_sync (v_prob v) -> on_con v k f = Ok v' -> Forall in_sync (v_prob v').
Proof.
  intros v k f v' H E. unfold on_con, pick in E. destruct (nth_error (v_con v) k) as [p|] eqn:En; [|discriminate]. cbn [bind] in E.
  destruct (f p) as [p'|] eqn:Ef; [|discriminate]. cbn [bind] in E. injection E as <-. exact H.
Qed.

Lemma vcall_sync : forall v c v', Forall in_sync (v_prob v) -> match c with DefaultScales _ => False | _ => True end -> vcall v c = Ok v' -> Forall in_sync (v_prob v').
Proof.
  intros v c v' H Hd E.
  assert (Pk : forall X (l : list X) i (f : X -> result values), bind (pick l i) f = Ok v' -> exists x, f x = Ok v').
  { intros X l i f Hx. destruct (pick l i) as [x|]; [eauto|discriminate]. }
  destruct c; try contradiction; cbn [vcall] in E.
  - injection E as <-. exact H.
  - apply Pk in E. destruct E as [? E]. injection E as <-. exact H.
  - injection E as <-. exact H.
  - injection E as <-. exact H.
  - injection E as <-. cbn [v_prob]. apply Forall_app. split; [exact H|]. constructor; [|constructor]. split; intros ? ? [].
  - apply Pk in E. destruct E as [? E]. apply Pk in E. destruct E as [? E]. eapply on_con_sync; eassumption.
  - apply Pk in E. destruct E as [? E]. apply Pk in E. destruct E as [? E]. eapply on_con_sync; eassumption.
  - apply Pk in E. destruct E as [? E]. apply Pk in E. destruct E as [? E]. eapply on_prob_sync; try eassumption. intros p p'. apply sync_add_con.
  - eapply on_prob_sync; try eassumption. intros p p'. apply sync_del_con.
  - apply Pk in E. destruct E as [? E]. apply Pk in E. destruct E as [? E]. eapply on_prob_sync; try eassumption. intros p p'. apply sync_add_obj.
  - eapply on_prob_sync; try eassumption. intros p p'. apply sync_del_obj.
  - eapply on_prob_sync; try eassumption. intros p p' _. apply sync_scales.
  - eapply on_prob_sync; try eassumption. intros p p' _. apply sync_scales.
  - eapply on_prob_sync; try eassumption. intros p p'. apply sync_scale_one.
  - apply Pk in E. destruct E as [? E]. apply Pk in E. destruct E as [? E]. eapply on_prob_sync; try eassumption. intros p p'. apply sync_scale_one.
  - eapply on_prob_sync; try eassumption. intros p p' Hp Ep. injection Ep as <-. rewrite hstructure_triu. now apply sync_triu.
  - eapply on_prob_sync; try eassumption. intros p p' Hp Ep. injection Ep as <-. rewrite hessian_triu. now apply sync_triu.
Qed.
Lemma vrun_sync : forall cs v v', Forall in_sync (v_prob v) -> no_reset cs -> foldM vcall cs v = Ok v' -> Forall in_sync (v_prob v').
Proof.
  intros cs; induction cs as [|c r IH]; intros v v' H Hn E; cbn [foldM] in E; [injection E as <-; exact H|]. inversion Hn; subst.
  destruct (vcall v c) as [v1|] eqn:E1; [|discriminate]. eapply IH; [|eassumption|eassumption]. eapply vcall_sync; eassumption.
Qed.

(** a call on one problem does not change the others *)
Lemma on_prob_frame : forall v k f v' q, on_prob v k f = Ok v' -> q <> k -> nth_error (v_prob v') q = nth_error (v_prob v) q.
Proof.
  intros v k f v' q E Hq. unfold on_prob in E. destruct (pick (v_prob v) k); [|discriminate]. cbn [bind] in E. destruct (f _); [|discriminate]. cbn [bind] in E. injection E as <-.
  now apply replace_other.
Qed.
Lemma vcall_frame : forall v c v' q, vcall v c = Ok v' -> touches c <> Some q -> (q < length (v_prob v))%nat -> nth_error (v_prob v') q = nth_error (v_prob v) q.
Proof.
  intros v c v' q E Ht Hq.
  assert (Pk : forall X (l : list X) i (f : X -> result values), bind (pick l i) f = Ok v' -> exists x, f x = Ok v').
  { intros X l i f Hx. destruct (pick l i) as [x|]; [eauto|discriminate]. }
  assert (Oc : forall i f, on_con v i f = Ok v' -> nth_error (v_prob v') q = nth_error (v_prob v) q).
  { intros i f Hx. unfold on_con in Hx. apply Pk in Hx. destruct Hx as [? Hx]. destruct (f x); [|discriminate]. cbn [bind] in Hx. now injection Hx as <-. }
  destruct c; cbn [vcall touches] in *; repeat (match type of E with bind (pick _ _) _ = _ => apply Pk in E; destruct E as [? E] end); try (injection E as <-; reflexivity); try (eapply Oc; eassumption);
    try (eapply on_prob_frame; [eassumption|congruence]).
  injection E as <-. cbn [v_prob]. now apply nth_error_app1.
Qed.
