(** C69: what the setters and the loops over the pieces of a problem do. *)
From Verif Require Import Base RBase NlpModel AliasModel AliasSpec AliasProofs.
From Coq Require Import Lia.
Open Scope nat_scope.

Definition but_con (w w' : world) : Prop :=
  w_arr w' = w_arr w /\ w_na w' = w_na w /\ w_nc w' = w_nc w /\ w_obj w' = w_obj w /\ w_no w' = w_no w /\ w_prob w' = w_prob w /\ w_np w' = w_np w /\
  w_user w' = w_user w /\ w_nu w' = w_nu w.
Definition but_obj (w w' : world) : Prop :=
  w_arr w' = w_arr w /\ w_na w' = w_na w /\ w_con w' = w_con w /\ w_nc w' = w_nc w /\ w_no w' = w_no w /\ w_prob w' = w_prob w /\ w_np w' = w_np w /\
  w_user w' = w_user w /\ w_nu w' = w_nu w.

Lemma ujs_keeps : forall c v, update_jac_scales c = Ok v ->
  c_in v = c_in c /\ c_con v = c_con c /\ (forall s t, with_con (with_in v s) t = with_js (with_con (with_in c s) t) (c_js v)).
Proof.
  intros c v H. unfold update_jac_scales in H. destruct (gather (c_con c) (c_jr c)); [|discriminate]. cbn [bind] in H.
  destruct (gather (c_in c) (c_jc c)); [|discriminate]. cbn [bind] in H. inversion H; subst. repeat split.
Qed.
Lemma uhs_keeps : forall c v, update_hess_scales c = Ok v -> c_in v = c_in c /\ c_con v = c_con c.
Proof.
  intros c v H. unfold update_hess_scales in H. destruct (gather (c_in c) (c_hr c)); [|discriminate]. cbn [bind] in H.
  destruct (gather (c_in c) (c_hc c)); [|discriminate]. cbn [bind] in H. inversion H; subst. repeat split.
Qed.
Lemma ohs_keeps : forall c v, obj_update_hess_scales c = Ok v -> o_in v = o_in c.
Proof.
  intros c v H. unfold obj_update_hess_scales in H. destruct (gather (o_in c) (o_hr c)); [|discriminate]. cbn [bind] in H.
  destruct (gather (o_in c) (o_hc c)); [|discriminate]. cbn [bind] in H. inversion H; subst. reflexivity.
Qed.
Lemma with_back : forall v s t, c_in v = s -> c_con v = t -> with_con (with_in v s) t = v.
Proof. intros v s t <- <-. now destruct v. Qed.
Lemma with_oback : forall v s, o_in v = s -> with_oin v s = v.
Proof. intros v s <-. now destruct v. Qed.

Lemma set_in_eq : forall hv s0 t s, set_input_scales (with_con (with_in hv s0) t) s = bind (update_jac_scales (with_con (with_in hv s) t)) update_hess_scales.
Proof. reflexivity. Qed.
Lemma set_con_eq : forall hv s t0 t, set_con_scales (with_con (with_in hv s) t0) t = update_jac_scales (with_con (with_in hv s) t).
Proof. reflexivity. Qed.
Lemma oset_in_eq : forall hv s0 s, obj_set_input_scales (with_oin hv s0) s = obj_update_hess_scales (with_oin hv s).
Proof. reflexivity. Qed.

Lemma hset_in_spec : forall w i a,
  match hset_input_scales w i a with
  | Ok w' => exists c', w' = put_con w i c' /\ hc_in c' = a /\ hc_con c' = hc_con (w_con w i) /\
      forall s0, set_input_scales (with_con (with_in (hc_v (w_con w i)) s0) (w_arr w (hc_con (w_con w i)))) (w_arr w a) = Ok (view_con w c')
  | Raise e => forall s0, set_input_scales (with_con (with_in (hc_v (w_con w i)) s0) (w_arr w (hc_con (w_con w i)))) (w_arr w a) = Raise e
  end.
Proof.
  intros w i a. unfold hset_input_scales. set (o := w_con w i). unfold view_con at 1. cbn [hc_v hc_in hc_con].
  destruct (bind _ _) as [v|e] eqn:E; cbn [fmap].
  - eexists. split; [reflexivity|]. cbn [hc_in hc_con]. split; [reflexivity|]. split; [reflexivity|]. intros s0. rewrite set_in_eq, E. f_equal.
    unfold view_con. cbn [hc_v hc_in hc_con]. symmetry.
    destruct (update_jac_scales _) as [v1|] eqn:E1; [|discriminate]. cbn [bind] in E. destruct (ujs_keeps _ _ E1) as (K1 & K2 & _). destruct (uhs_keeps _ _ E) as (K3 & K4).
    apply with_back; [rewrite K3, K1|rewrite K4, K2]; reflexivity.
  - intros s0. now rewrite set_in_eq.
Qed.

Lemma hset_con_spec : forall w i a,
  match hset_con_scales w i a with
  | Ok w' => exists c', w' = put_con w i c' /\ hc_in c' = hc_in (w_con w i) /\ hc_con c' = a /\
      forall t0, set_con_scales (with_con (with_in (hc_v (w_con w i)) (w_arr w (hc_in (w_con w i)))) t0) (w_arr w a) = Ok (view_con w c')
  | Raise e => forall t0, set_con_scales (with_con (with_in (hc_v (w_con w i)) (w_arr w (hc_in (w_con w i)))) t0) (w_arr w a) = Raise e
  end.
Proof.
  intros w i a. unfold hset_con_scales. set (o := w_con w i). unfold view_con at 1. cbn [hc_v hc_in hc_con].
  destruct (update_jac_scales _) as [v|e] eqn:E; cbn [fmap].
  - eexists. split; [reflexivity|]. cbn [hc_in hc_con]. split; [reflexivity|]. split; [reflexivity|]. intros s0. rewrite set_con_eq, E. f_equal.
    unfold view_con. cbn [hc_v hc_in hc_con]. symmetry. destruct (ujs_keeps _ _ E) as (K1 & K2 & _).
    apply with_back; [rewrite K1|rewrite K2]; reflexivity.
  - intros s0. now rewrite set_con_eq.
Qed.

Lemma hoset_in_spec : forall w i a,
  match hobj_set_input_scales w i a with
  | Ok w' => exists c', w' = put_obj w i c' /\ ho_in c' = a /\ forall s0, obj_set_input_scales (with_oin (ho_v (w_obj w i)) s0) (w_arr w a) = Ok (view_obj w c')
  | Raise e => forall s0, obj_set_input_scales (with_oin (ho_v (w_obj w i)) s0) (w_arr w a) = Raise e
  end.
Proof.
  intros w i a. unfold hobj_set_input_scales. set (o := w_obj w i). unfold view_obj at 1. cbn [ho_v ho_in].
  destruct (obj_update_hess_scales _) as [v|e] eqn:E; cbn [fmap].
  - eexists. split; [reflexivity|]. cbn [ho_in]. split; [reflexivity|]. intros s0. rewrite oset_in_eq, E. f_equal.
    unfold view_obj. cbn [ho_v ho_in]. symmetry. apply with_oback. now rewrite (ohs_keeps _ _ E).
  - intros s0. now rewrite oset_in_eq.
Qed.

(** ** The loops *)
(** [f] gives the input scales the values had before: they do not matter *)
Lemma push_cons : forall a L w, NoDup (refs L) ->
  match foldM (fun w kc => hset_input_scales w (snd kc) a) L w with
  | Ok w' => but_con w w' /\ (forall i, ~ In i (refs L) -> w_con w' i = w_con w i) /\
      (forall i, In i (refs L) -> hc_in (w_con w' i) = a /\ hc_con (w_con w' i) = hc_con (w_con w i)) /\
      (forall f, mapM (fun kc => fmap (fun c => (fst kc, c)) (set_input_scales (snd kc) (w_arr w a)))
        (map (fun kc => (fst kc, with_con (with_in (hc_v (w_con w (snd kc))) (f (snd kc))) (w_arr w (hc_con (w_con w (snd kc)))))) L)
        = Ok (map (fun kc => (fst kc, view_con w' (w_con w' (snd kc)))) L))
  | Raise e => forall f, mapM (fun kc => fmap (fun c => (fst kc, c)) (set_input_scales (snd kc) (w_arr w a)))
        (map (fun kc => (fst kc, with_con (with_in (hc_v (w_con w (snd kc))) (f (snd kc))) (w_arr w (hc_con (w_con w (snd kc)))))) L) = Raise e
  end.
Proof.
  intros a L; induction L as [|[n i] r IH]; intros w Hnd; cbn [foldM].
  - split; [repeat split|]. split; [reflexivity|]. split; [intros i []|]. reflexivity.
  - cbn [refs map snd] in Hnd. inversion Hnd as [|? ? Hni Hr]; subst. fold (refs r) in Hni, Hr. cbn [snd].
    pose proof (hset_in_spec w i a) as Hs. destruct (hset_input_scales w i a) as [w1|e].
    + destruct Hs as (c' & -> & Hin & Hcon & Hv). specialize (IH (put_con w i c') Hr).
      assert (Hmap : forall f, map (fun kc : string * nat => (fst kc, with_con (with_in (hc_v (w_con (put_con w i c') (snd kc))) (f (snd kc))) (w_arr (put_con w i c') (hc_con (w_con (put_con w i c') (snd kc)))))) r
        = map (fun kc => (fst kc, with_con (with_in (hc_v (w_con w (snd kc))) (f (snd kc))) (w_arr w (hc_con (w_con w (snd kc)))))) r).
      { intros f. apply map_ext_in. intros [m j] Hj. cbn [fst snd put_con w_con w_arr].
        rewrite put_other; [reflexivity|]. intros ->. apply Hni. unfold refs. apply in_map_iff. now exists (m, i). }
      destruct (foldM _ r (put_con w i c')) as [w'|e].
      * destruct IH as (HB & Hout & Hinn & HM). split; [exact HB|]. split; [|split].
        -- intros j Hj. cbn [refs map snd In] in Hj. rewrite Hout by (intros Hx; apply Hj; now right). cbn [put_con w_con]. apply put_other. intros ->. apply Hj. now left.
        -- intros j Hj. destruct (in_dec Nat.eq_dec j (refs r)) as [Hjr|Hjr].
           ++ destruct (Hinn j Hjr) as [E1 E2]. split; [exact E1|]. rewrite E2. cbn [put_con w_con]. rewrite put_other; [reflexivity|]. intros ->. contradiction.
           ++ destruct Hj as [<-|Hj]; [|contradiction]. cbn [snd] in *. rewrite (Hout _ Hjr). cbn [put_con w_con]. rewrite put_same. split; assumption.
        -- intros f. cbn [map mapM fst snd]. rewrite Hv. cbn [fmap]. specialize (HM f). rewrite Hmap in HM. cbn [put_con w_arr] in HM. rewrite HM. f_equal. f_equal. f_equal.
           rewrite (Hout _ Hni). cbn [put_con w_con]. rewrite put_same. apply view_con_ext; now rewrite (proj1 HB).
      * intros f. cbn [map mapM fst snd]. rewrite Hv. cbn [fmap]. specialize (IH f). rewrite Hmap in IH. cbn [put_con w_arr] in IH. now rewrite IH.
    + intros f. cbn [map mapM fst snd]. now rewrite Hs.
Qed.

Lemma push_objs : forall a L w, NoDup (refs L) ->
  match foldM (fun w kc => hobj_set_input_scales w (snd kc) a) L w with
  | Ok w' => but_obj w w' /\ (forall i, ~ In i (refs L) -> w_obj w' i = w_obj w i) /\ (forall i, In i (refs L) -> ho_in (w_obj w' i) = a) /\
      (forall f, mapM (fun kc => fmap (fun c => (fst kc, c)) (obj_set_input_scales (snd kc) (w_arr w a)))
        (map (fun kc => (fst kc, with_oin (ho_v (w_obj w (snd kc))) (f (snd kc)))) L) = Ok (map (fun kc => (fst kc, view_obj w' (w_obj w' (snd kc)))) L))
  | Raise e => forall f, mapM (fun kc => fmap (fun c => (fst kc, c)) (obj_set_input_scales (snd kc) (w_arr w a)))
        (map (fun kc => (fst kc, with_oin (ho_v (w_obj w (snd kc))) (f (snd kc)))) L) = Raise e
  end.
Proof.
  intros a L; induction L as [|[n i] r IH]; intros w Hnd; cbn [foldM].
  - split; [repeat split|]. split; [reflexivity|]. split; [intros i []|]. reflexivity.
  - cbn [refs map snd] in Hnd. inversion Hnd as [|? ? Hni Hr]; subst. fold (refs r) in Hni, Hr. cbn [snd].
    pose proof (hoset_in_spec w i a) as Hs. destruct (hobj_set_input_scales w i a) as [w1|e].
    + destruct Hs as (c' & -> & Hin & Hv). specialize (IH (put_obj w i c') Hr).
      assert (Hmap : forall f, map (fun kc : string * nat => (fst kc, with_oin (ho_v (w_obj (put_obj w i c') (snd kc))) (f (snd kc)))) r
        = map (fun kc => (fst kc, with_oin (ho_v (w_obj w (snd kc))) (f (snd kc)))) r).
      { intros f. apply map_ext_in. intros [m j] Hj. cbn [fst snd put_obj w_obj w_arr].
        rewrite put_other; [reflexivity|]. intros ->. apply Hni. unfold refs. apply in_map_iff. now exists (m, i). }
      destruct (foldM _ r (put_obj w i c')) as [w'|e].
      * destruct IH as (HB & Hout & Hinn & HM). split; [exact HB|]. split; [|split].
        -- intros j Hj. cbn [refs map snd In] in Hj. rewrite Hout by (intros Hx; apply Hj; now right). cbn [put_obj w_obj]. apply put_other. intros ->. apply Hj. now left.
        -- intros j Hj. destruct (in_dec Nat.eq_dec j (refs r)) as [Hjr|Hjr]; [now apply Hinn|].
           destruct Hj as [<-|Hj]; [|contradiction]. cbn [snd] in *. rewrite (Hout _ Hjr). cbn [put_obj w_obj]. rewrite put_same. assumption.
        -- intros f. cbn [map mapM fst snd]. rewrite Hv. cbn [fmap]. specialize (HM f). rewrite Hmap in HM. cbn [put_obj w_arr] in HM. rewrite HM. f_equal. f_equal. f_equal.
           rewrite (Hout _ Hni). cbn [put_obj w_obj]. rewrite put_same. apply view_obj_ext; now rewrite (proj1 HB).
      * intros f. cbn [map mapM fst snd]. rewrite Hv. cbn [fmap]. specialize (IH f). rewrite Hmap in IH. cbn [put_obj w_arr] in IH. now rewrite IH.
    + intros f. cbn [map mapM fst snd]. now rewrite Hs.
Qed.

(** ** The values of dictionaries *)
Definition mv {A B} (g : A -> B) (d : dict A) : dict B := map (fun kc => (fst kc, g (snd kc))) d.
Lemma mv_dset : forall A B (g : A -> B) n x d, mv g (dset n x d) = dset n (g x) (mv g d).
Proof. intros A B g n x d; induction d as [|[m y] r IH]; cbn; [reflexivity|]. destruct (String.eqb n m); cbn; [reflexivity|]. f_equal. exact IH. Qed.
Lemma mv_ddel : forall A B (g : A -> B) n d, mv g (ddel n d) = ddel n (mv g d).
Proof. intros A B g n d; induction d as [|[m y] r IH]; cbn; [reflexivity|]. destruct (String.eqb n m); cbn; [reflexivity|]. f_equal. exact IH. Qed.
Lemma mv_dget : forall A B (g : A -> B) n d, dget n (mv g d) = option_map g (dget n d).
Proof. intros A B g n d; induction d as [|[m y] r IH]; cbn; [reflexivity|]. destruct (String.eqb n m); cbn; [reflexivity|]. exact IH. Qed.
Lemma mv_dmem : forall A B (g : A -> B) n d, dmem n (mv g d) = dmem n d.
Proof. intros. unfold dmem. rewrite mv_dget. now destruct (dget n d). Qed.
Lemma mv_ext : forall A B (g h : A -> B) d, (forall x, In x (map snd d) -> g x = h x) -> mv g d = mv h d.
Proof. intros A B g h d H. unfold mv. apply map_ext_in. intros [n x] Hx. cbn. f_equal. apply H. apply in_map_iff. now exists (n, x). Qed.
Lemma refs_dset_new : forall n i d, dmem n d = false -> refs (dset n i d) = refs d ++ [i].
Proof.
  intros n i d H. unfold refs. rewrite dset_notin; [now rewrite map_app|]. apply dget_none. unfold dmem in H. now destruct (dget n d).
Qed.
Lemma refs_ddel : forall n d i, In i (refs (ddel n d)) -> In i (refs d).
Proof. intros n d i; induction d as [|[m y] r IH]; cbn; [tauto|]. destruct (String.eqb n m); cbn; [tauto|]. intros [H|H]; [now left|right; now apply IH]. Qed.
Lemma nodup_ddel : forall n d, NoDup (refs d) -> NoDup (refs (ddel n d)).
Proof.
  intros n d; induction d as [|[m y] r IH]; cbn; [trivial|]. intros H. inversion H; subst. destruct (String.eqb n m); cbn; [assumption|].
  constructor; [|now apply IH]. intros Hx. now apply refs_ddel in Hx.
Qed.
(** changing the object that a name refers to *)
Lemma mv_change : forall B (g h : nat -> B) n i d, NoDup (refs d) -> dget n d = Some i -> (forall j, j <> i -> h j = g j) -> mv h d = dset n (h i) (mv g d).
Proof.
  intros B g h n i d; induction d as [|[m y] r IH]; cbn; [discriminate|]. intros Hnd Hg He. inversion Hnd; subst. destruct (String.eqb n m) eqn:E.
  - injection Hg as ->. f_equal. apply mv_ext. intros x Hx. apply He. intros ->. contradiction.
  - f_equal; [|now apply IH]. f_equal. apply He. intros ->. apply dget_in in Hg. apply H1. apply in_map_iff. now exists (n, i).
Qed.
