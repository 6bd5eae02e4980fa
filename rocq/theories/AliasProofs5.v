(** C69: scaling, and whole programs. *)
From Verif Require Import Base RBase NlpModel AliasModel AliasSpec AliasProofs AliasProofs2 AliasProofs3 AliasProofs4.
From Coq Require Import Lia.
Open Scope nat_scope.

(** [w1]: the problem has been given its new scales, the pieces have not been told *)
Lemma push_op : forall A B S k w w1 s, sep A B S w -> k < w_np w ->
  w_con w1 = w_con w -> w_nc w1 = w_nc w -> w_obj w1 = w_obj w -> w_no w1 = w_no w -> w_np w1 = w_np w -> w_user w1 = w_user w -> w_nu w1 = w_nu w -> w_na w <= w_na w1 ->
  (forall q, q <> k -> w_prob w1 q = w_prob w q) ->
  hp_n (w_prob w1 k) = hp_n (w_prob w k) -> hp_cons (w_prob w1 k) = hp_cons (w_prob w k) -> hp_objs (w_prob w1 k) = hp_objs (w_prob w k) -> hp_triu (w_prob w1 k) = hp_triu (w_prob w k) ->
  (scl w1 k = scl w k \/ w_na w <= scl w1 k < w_na w1) ->
  (forall a, a < w_na w -> a <> scl w k -> w_arr w1 a = w_arr w a) -> w_arr w1 (scl w1 k) = s ->
  match push w1 k with
  | Ok w' => fits A B A B S k w w' /\ set_dec_var_scales (view_prob w (w_prob w k)) s = Ok (view_prob w' (w_prob w' k))
  | Raise e => set_dec_var_scales (view_prob w (w_prob w k)) s = Raise e
  end.
Proof.
  intros A B S k w w1 s Hs Hk Ec Enc Eo Eno Enp Eu Enu Hna Hq Pn Pc Po Pt Hscl Harr Hval.
  assert (Harr' : forall a, safe w S None a -> w_arr w1 a = w_arr w a).
  { intros a (H1 & H2 & _). apply Harr; [exact H1|]. now apply H2. }
  unfold push, set_dec_var_scales. fold (scl w1 k). rewrite Po, Pc. rewrite cons_mv, objs_mv.
  pose proof (push_objs (scl w1 k) (hp_objs (w_prob w k)) w1 (s_ndo _ _ _ _ Hs k Hk)) as HO.
  assert (Mo : map (fun kc : string * nat => (fst kc, with_oin (ho_v (w_obj w1 (snd kc))) (w_arr w (ho_in (w_obj w (snd kc)))))) (hp_objs (w_prob w k))
    = mv (fun i => view_obj w (w_obj w i)) (hp_objs (w_prob w k))) by now rewrite Eo.
  destruct (foldM _ (hp_objs (w_prob w k)) w1) as [w2|e]; cbn [bind].
  2: { specialize (HO (fun j => w_arr w (ho_in (w_obj w j)))). cbv beta in HO. rewrite Mo, Hval in HO. now rewrite HO. }
  destruct HO as (BO & Oout & Oin & HO). specialize (HO (fun j => w_arr w (ho_in (w_obj w j)))). cbv beta in HO. rewrite Mo, Hval in HO. rewrite HO. cbn [bind].
  destruct BO as (A2 & Na2 & C2 & Nc2 & No2 & P2 & Np2 & U2 & Nu2).
  pose proof (push_cons (scl w1 k) (hp_cons (w_prob w k)) w2 (s_ndc _ _ _ _ Hs k Hk)) as HC.
  assert (Mc : map (fun kc : string * nat => (fst kc, with_con (with_in (hc_v (w_con w2 (snd kc))) (w_arr w (hc_in (w_con w (snd kc))))) (w_arr w2 (hc_con (w_con w2 (snd kc)))))) (hp_cons (w_prob w k))
    = mv (fun i => view_con w (w_con w i)) (hp_cons (w_prob w k))).
  { rewrite C2, A2, Ec. unfold mv. apply map_ext_in. intros [m j] Hj. cbn [fst snd]. f_equal. unfold view_con. f_equal. apply Harr'.
    apply (s_pc _ _ _ _ Hs k j Hk). unfold refs. apply in_map_iff. now exists (m, j). }
  destruct (foldM _ (hp_cons (w_prob w k)) w2) as [w3|e]; cbn [bind].
  2: { specialize (HC (fun j => w_arr w (hc_in (w_con w j)))). cbv beta in HC. rewrite Mc, A2, Hval in HC. now rewrite HC. }
  destruct HC as (BC & Cout & Cin & HC). specialize (HC (fun j => w_arr w (hc_in (w_con w j)))). cbv beta in HC. rewrite Mc, A2, Hval in HC. rewrite HC. cbn [bind].
  destruct BC as (A3 & Na3 & Nc3 & O3 & No3 & P3 & Np3 & U3 & Nu3).
  assert (F : footprint A B k w w3).
  { constructor; try congruence.
    - intros q Hqk. rewrite P3, P2. now apply Hq.
    - unfold scl. rewrite P3, P2, Na3, Na2. fold (scl w1 k). exact Hscl.
    - rewrite A3, A2. exact Harr.
    - intros i Hi Hni. rewrite Cout, C2, Ec; [reflexivity|]. intros Hx. apply Hni. now apply (s_pc _ _ _ _ Hs k).
    - intros q i Hq0 Hqk Hi. rewrite Cout, C2, Ec; [reflexivity|]. intros Hx. apply Hqk. now apply (s_dc _ _ _ _ Hs q k i).
    - intros i Hi Hni. rewrite O3, Oout, Eo; [reflexivity|]. intros Hx. apply Hni. now apply (s_po _ _ _ _ Hs k).
    - intros q i Hq0 Hqk Hi. rewrite O3, Oout, Eo; [reflexivity|]. intros Hx. apply Hqk. now apply (s_do _ _ _ _ Hs q k i). }
  assert (Hown : safe w3 S (Some k) (scl w1 k)).
  { split; [|split].
    - rewrite Na3, Na2. pose proof (s_scl _ _ _ _ Hs k Hk). lia.
    - rewrite Np3, Np2, Enp. intros q Hq0 Hqk. assert (Hne : q <> k) by congruence. unfold scl at 2. rewrite P3, P2, Hq by assumption. fold (scl w q).
      pose proof (s_scl _ _ _ _ Hs q Hq0). destruct Hscl as [->|?]; [|lia]. intros E. apply Hne. symmetry. now apply (s_sinj _ _ _ _ Hs).
    - rewrite Nu3, Nu2, Enu, U3, U2, Eu. intros u Hu _. pose proof (s_user _ _ _ _ Hs u Hu). destruct Hscl as [->|?]; [|lia]. intros E. symmetry in E. revert E. now apply (s_sclu _ _ _ _ Hs). }
  assert (Hsafe : forall o a, safe w S o a -> safe w3 S o a).
  { intros o a. eapply safe_step; try eassumption; try apply incl_refl. }
  split.
  - split; [exact F|]. split; [apply Hs|]. split; [apply Hs|]. rewrite P3, P2, Pc, Po. split; [|split; [|split; [now apply (s_ndc _ _ _ _ Hs)|now apply (s_ndo _ _ _ _ Hs)]]].
    + intros i Hi. destruct (Cin i Hi) as [E1 E2]. destruct (s_pc _ _ _ _ Hs k i Hk Hi) as (? & ? & ?). rewrite E1, E2, C2, Ec. split; [assumption|]. split; [now left|]. split; [exact Hown|now apply Hsafe].
    + intros i Hi. destruct (s_po _ _ _ _ Hs k i Hk Hi) as (? & ?). rewrite O3, (Oin i Hi). split; [assumption|]. split; [now left|]. exact Hown.
  - f_equal. unfold view_prob. rewrite P3, P2, Pn, Pc, Po, Pt. fold (scl w1 k). f_equal.
    + apply map_ext. intros ko. f_equal. unfold view_obj. now rewrite A3, O3.
    + cbn [p_triu]. now rewrite A3, A2.
Qed.

Lemma step_scale_new : forall A B S w v k s, sep A B S w -> agree A B w v -> k < w_np w ->
  outcome A B S (scale_new w k s) (on_prob v k (fun p => set_dec_var_scales p s)).
Proof.
  intros A B S w v k s Hs Ha Hk. eapply op_prob; try eassumption; try apply incl_refl. unfold scale_new.
  apply (push_op A B S k w (put_prob (new_arr w s) k (hp_set_scales (w_prob w k) (w_na w))) s); try assumption; try reflexivity; worlds; try (rewrite put_same; reflexivity); try lia.
  - intros q Hq. now apply put_other.
  - right. unfold scl. worlds. rewrite put_same. cbn. lia.
  - intros a Ha0 _. apply put_other. lia.
  - unfold scl. worlds. rewrite put_same. cbn. apply put_same.
Qed.
Lemma step_scale_in_place : forall A B S w v k s, sep A B S w -> agree A B w v -> k < w_np w ->
  outcome A B S (scale_in_place w k s) (on_prob v k (fun p => set_dec_var_scales p s)).
Proof.
  intros A B S w v k s Hs Ha Hk. eapply op_prob; try eassumption; try apply incl_refl. unfold scale_in_place.
  apply (push_op A B S k w (put_arr w (hp_scales (w_prob w k)) s) s); try assumption; try reflexivity; worlds; try lia.
  - now left.
  - intros a Ha0 Hne. now apply put_other.
  - apply put_same.
Qed.

(** the scales of one constraint; [a] is the array that is handed over *)
Lemma con_scale_op : forall A B S S' w w1 v k n a, sep A B S w -> agree A B w v -> k < w_np w -> incl S S' ->
  ext w w1 -> w_con w1 = w_con w -> w_nc w1 = w_nc w -> w_obj w1 = w_obj w -> w_no w1 = w_no w -> w_prob w1 = w_prob w -> w_np w1 = w_np w -> w_user w1 = w_user w -> w_nu w1 = w_nu w ->
  safe w1 S' None a ->
  outcome A B S' (bind (lookup_err n (hp_cons (w_prob w k))) (fun i => hset_con_scales w1 i a)) (on_prob v k (fun p => scale_one p n (w_arr w1 a))).
Proof.
  intros A B S S' w w1 v k n a Hs Ha Hk HS He Ec Enc Eo Eno Ep Enp Eu Enu Hsa. eapply op_prob; try eassumption; try apply incl_refl.
  unfold scale_one, lookup_err. rewrite cons_mv, mv_dget. destruct (dget n (hp_cons (w_prob w k))) as [i|] eqn:Eg; cbn [option_map bind]; [|reflexivity].
  assert (Hi : In i (refs (hp_cons (w_prob w k)))). { apply dget_in in Eg. unfold refs. apply in_map_iff. now exists (n, i). }
  destruct (s_pc _ _ _ _ Hs k i Hk Hi) as (HiA & Si & Sc).
  assert (Vi : view_con w (w_con w i) = with_con (with_in (hc_v (w_con w1 i)) (w_arr w1 (hc_in (w_con w1 i)))) (w_arr w (hc_con (w_con w i)))).
  { unfold view_con. rewrite Ec. f_equal. f_equal. symmetry. apply (e_arr _ _ He). apply Si. }
  pose proof (hset_con_spec w1 i a) as Hsp. destruct (hset_con_scales w1 i a) as [w2|e]; [|rewrite Vi, Hsp; reflexivity].
  destruct Hsp as (c' & -> & Ein & Econ & Ev). rewrite Vi, Ev. cbn [bind].
  assert (F : footprint A B k w (put_con w1 i c')).
  { constructor; worlds; try congruence; try lia.
    - apply He.
    - left. unfold scl. worlds. now rewrite Ep.
    - intros b Hb _. now apply (e_arr _ _ He).
    - intros j Hj Hnj. rewrite put_other, Ec; [reflexivity|]. intros ->. contradiction.
    - intros q j Hq Hqk Hj. rewrite put_other, Ec; [reflexivity|]. intros ->. apply Hqk. now apply (s_dc _ _ _ _ Hs q k i). }
  assert (Hsafe : forall o b, safe w S o b -> safe (put_con w1 i c') S' o b).
  { intros o b. eapply safe_step; eassumption. }
  split.
  - split; [exact F|]. split; [apply Hs|]. split; [apply Hs|]. worlds. rewrite Ep. split; [|split; [|split; [now apply (s_ndc _ _ _ _ Hs)|now apply (s_ndo _ _ _ _ Hs)]]].
    + intros j Hj. destruct (s_pc _ _ _ _ Hs k j Hk Hj) as (? & ? & ?). split; [assumption|]. split; [now left|]. destruct (Nat.eq_dec j i) as [->|Hne].
      * rewrite put_same, Ein, Econ, Ec. split; [now apply Hsafe|]. exact Hsa.
      * rewrite put_other, Ec by assumption. split; now apply Hsafe.
    + intros j Hj. destruct (s_po _ _ _ _ Hs k j Hk Hj) as (? & ?). rewrite Eo. split; [assumption|]. split; [now left|]. now apply Hsafe.
  - f_equal. unfold NlpModel.set_cons. worlds. rewrite Ep. unfold view_prob. cbn [p_n p_objs p_triu p_scales].
    f_equal.
    + symmetry. change (mv (fun j => view_con (put_con w1 i c') (w_con (put_con w1 i c') j)) (hp_cons (w_prob w k)) = dset n (view_con w1 c') (mv (fun j => view_con w (w_con w j)) (hp_cons (w_prob w k)))).
      rewrite (mv_ext _ _ (fun j => view_con w (w_con w j)) (fun j => if Nat.eqb j i then view_con w (w_con w i) else view_con (put_con w1 i c') (w_con (put_con w1 i c') j))).
      2: { intros j Hj. destruct (Nat.eqb_spec j i) as [->|Hne]; [reflexivity|]. worlds. rewrite put_other, Ec by assumption.
           destruct (s_pc _ _ _ _ Hs k j Hk Hj) as (_ & [? _] & [? _]). symmetry. apply view_con_ext; now apply (e_arr _ _ He). }
      rewrite (mv_change _ (fun j => if Nat.eqb j i then view_con w (w_con w i) else view_con (put_con w1 i c') (w_con (put_con w1 i c') j))
                 (fun j => view_con (put_con w1 i c') (w_con (put_con w1 i c') j)) n i); try assumption.
      * f_equal. worlds. now rewrite put_same.
      * now apply (s_ndc _ _ _ _ Hs).
      * intros j Hj. destruct (Nat.eqb_spec j i); [contradiction|reflexivity].
    + apply map_ext_in. intros [m j] Hj. cbn [fst snd]. f_equal. worlds. rewrite Eo. symmetry. apply view_obj_ext. worlds. apply (e_arr _ _ He).
      apply (s_po _ _ _ _ Hs k j Hk). unfold refs. apply in_map_iff. now exists (m, j).
    + symmetry. apply (e_arr _ _ He). now apply (s_scl _ _ _ _ Hs).
Qed.

Lemma ext_refl : forall w, ext w w.
Proof. intros w. constructor; intros; try lia; reflexivity. Qed.

Lemma step_default : forall A B S w v k, sep A B S w -> agree A B w v -> k < w_np w ->
  outcome A B S (Ok (default_scales w k)) (on_prob v k (fun p => Ok (unscale p))).
Proof.
  intros A B S w v k Hs Ha Hk. eapply op_prob; try eassumption; try apply incl_refl. unfold default_scales.
  set (w' := put_prob _ _ _).
  assert (F : footprint A B k w w').
  { subst w'. constructor; worlds; try reflexivity; try lia.
    - intros q Hq. now apply put_other.
    - right. unfold scl. worlds. rewrite put_same. cbn. lia.
    - intros a Hx _. apply put_other. lia. }
  assert (Hsafe : forall o b, safe w S o b -> safe w' S o b).
  { intros o b. eapply safe_step; try eassumption. apply incl_refl. }
  split.
  - split; [exact F|]. split; [apply Hs|]. split; [apply Hs|]. subst w'. worlds. rewrite put_same. cbn [hp_set_scales hp_cons hp_objs].
    split; [|split; [|split; [now apply (s_ndc _ _ _ _ Hs)|now apply (s_ndo _ _ _ _ Hs)]]].
    + intros i Hi. destruct (s_pc _ _ _ _ Hs k i Hk Hi) as (? & ? & ?). split; [assumption|]. split; [now left|]. split; now apply Hsafe.
    + intros i Hi. destruct (s_po _ _ _ _ Hs k i Hk Hi) as (? & ?). split; [assumption|]. split; [now left|]. now apply Hsafe.
  - f_equal. subst w'. unfold unscale, view_prob. worlds. rewrite put_same. cbn [hp_set_scales hp_n hp_cons hp_objs hp_triu hp_scales p_n p_cons p_objs p_triu]. f_equal.
    + apply map_ext_in. intros [m j] Hj. cbn [fst snd]. f_equal. symmetry.
      destruct (s_pc _ _ _ _ Hs k j Hk) as (_ & [? _] & [? _]); [unfold refs; apply in_map_iff; now exists (m, j)|]. apply view_con_ext; worlds; apply put_other; lia.
    + apply map_ext_in. intros [m j] Hj. cbn [fst snd]. f_equal. symmetry.
      destruct (s_po _ _ _ _ Hs k j Hk) as (_ & [? _]); [unfold refs; apply in_map_iff; now exists (m, j)|]. apply view_obj_ext; worlds; apply put_other; lia.
    + now rewrite put_same.
Qed.

(** ** All calls *)
Definition accA (A B S : list nat) c := fst (fst (next A B S c)).
Definition accB (A B S : list nat) c := snd (fst (next A B S c)).
Definition accS (A B S : list nat) c := snd (next A B S c).

Ltac guarded := match goal with |- context [Nat.ltb ?a ?b] => destruct (Nat.ltb_spec a b) end.

Lemma step_all : forall A B S w v c r, sep A B S w -> agree A B w v -> careful A B S (c :: r) ->
  outcome (accA A B S c) (accB A B S c) (accS A B S c) (hcall w c) (vcall v c) /\ careful (accA A B S c) (accB A B S c) (accS A B S c) r.
Proof.
  intros A B S w v c r Hs Ha Hc.
  assert (Pn : forall k, w_np w <= k -> pick (v_prob v) k = Raise NameError) by (intros; apply pick_none; now rewrite (a_np _ _ _ _ Ha)).
  assert (Cn : forall k, w_nc w <= k -> pick (v_con v) k = Raise NameError) by (intros; apply pick_none; now rewrite (a_nc _ _ _ _ Ha)).
  assert (On : forall k, w_no w <= k -> pick (v_obj v) k = Raise NameError) by (intros; apply pick_none; now rewrite (a_no _ _ _ _ Ha)).
  assert (Un : forall k, w_nu w <= k -> pick (v_arr v) k = Raise NameError) by (intros; apply pick_none; now rewrite (a_nu _ _ _ _ Ha)).
  assert (Cs : forall i, i < w_nc w -> exists x, pick (v_con v) i = Ok x).
  { intros i Hi. unfold pick. destruct (nth_error (v_con v) i) eqn:E; [eauto|]. apply nth_error_None in E. rewrite (a_nc _ _ _ _ Ha) in E. lia. }
  assert (Opn : forall k f e, w_np w <= k -> on_prob v k f = Raise e <-> e = NameError).
  { intros k f e Hk. unfold on_prob. rewrite Pn by assumption. cbn. split; congruence. }
  destruct c; cbn [careful] in Hc; unfold accA, accB, accS; cbn [next fst snd hcall vcall]; try (destruct Hc as [Hc1 Hc2]); (split; [|assumption]); unfold guard.
  - destruct (step_new_user A B S w v l Hs Ha). cbn. eauto.
  - guarded; cbn [outcome]; [|now rewrite Un]. rewrite (pick_some _ _ _ _ (a_user _ _ _ _ Ha u H)). cbn [bind]. eexists. split; [reflexivity|]. now apply step_write.
  - destruct (step_new_con A B S w v v0 Hs Ha). cbn. eauto.
  - destruct (step_new_obj A B S w v v0 Hs Ha). cbn. eauto.
  - destruct (step_new_prob A B S w v n Hs Ha). cbn. eauto.
  - guarded; cbn [andb]; [|now rewrite Cn]. rewrite (pick_some _ _ _ _ (a_con _ _ _ _ Ha i H Hc1)). cbn [bind]. guarded; [|now rewrite Un].
    rewrite (pick_some _ _ _ _ (a_user _ _ _ _ Ha u H0)). cbn [bind]. unfold on_con. rewrite (pick_some _ _ _ _ (a_con _ _ _ _ Ha i H Hc1)). cbn [bind].
    pose proof (hset_con_spec w i (w_user w u)) as Hsp. destruct (hset_con_scales w i (w_user w u)) as [w'|e]; cbn [outcome]; [|unfold view_con; now rewrite Hsp].
    destruct Hsp as (c' & -> & Ein & Econ & Ev). unfold view_con at 1. rewrite Ev. cbn [bind]. eexists. split; [reflexivity|].
    assert (Hs' : sep A B (u :: S) w) by (eapply sep_more; [|eassumption]; apply incl_tl, incl_refl). destruct (s_con _ _ _ _ Hs' i H Hc1).
    apply step_free_con; try assumption; [now rewrite Ein|]. rewrite Econ. eapply safe_user; eassumption.
  - guarded; cbn [andb]; [|now rewrite Cn]. rewrite (pick_some _ _ _ _ (a_con _ _ _ _ Ha i H Hc1)). cbn [bind]. guarded; [|now rewrite Un].
    rewrite (pick_some _ _ _ _ (a_user _ _ _ _ Ha u H0)). cbn [bind]. unfold on_con. rewrite (pick_some _ _ _ _ (a_con _ _ _ _ Ha i H Hc1)). cbn [bind].
    pose proof (hset_in_spec w i (w_user w u)) as Hsp. destruct (hset_input_scales w i (w_user w u)) as [w'|e]; cbn [outcome]; [|unfold view_con; now rewrite Hsp].
    destruct Hsp as (c' & -> & Ein & Econ & Ev). unfold view_con at 1. rewrite Ev. cbn [bind]. eexists. split; [reflexivity|].
    assert (Hs' : sep A B (u :: S) w) by (eapply sep_more; [|eassumption]; apply incl_tl, incl_refl). destruct (s_con _ _ _ _ Hs' i H Hc1).
    apply step_free_con; try assumption; [|now rewrite Econ]. rewrite Ein. eapply safe_user; eassumption.
  - guarded; cbn [andb]; [|now rewrite Pn]. rewrite (pick_some _ _ _ _ (a_prob _ _ _ _ Ha k H)). cbn [bind]. guarded; [|now rewrite Cn].
    rewrite (pick_some _ _ _ _ (a_con _ _ _ _ Ha i H0 Hc1)). cbn [bind]. now apply step_add_con.
  - guarded; [|now apply Opn]. now apply step_del_con.
  - guarded; cbn [andb]; [|now rewrite Pn]. rewrite (pick_some _ _ _ _ (a_prob _ _ _ _ Ha k H)). cbn [bind]. guarded; [|now rewrite On].
    rewrite (pick_some _ _ _ _ (a_obj _ _ _ _ Ha i H0 Hc1)). cbn [bind]. now apply step_add_obj.
  - guarded; [|now apply Opn]. now apply step_del_obj.
  - guarded; [|now apply Opn]. now apply step_scale_new.
  - guarded; [|now apply Opn]. now apply step_scale_in_place.
  - guarded; [|now apply Opn]. unfold con_scale_new.
    pose proof (con_scale_op A B S S w (new_arr w s) v k name (w_na w) Hs Ha H (incl_refl _) (ext_arr w s)) as HH. cbn [new_arr w_arr] in HH. rewrite put_same in HH.
    apply HH; try reflexivity. eapply safe_new; try eassumption; try reflexivity; [apply ext_arr|]. worlds. lia.
  - guarded; cbn [andb]; [|now rewrite Pn]. rewrite (pick_some _ _ _ _ (a_prob _ _ _ _ Ha k H)). cbn [bind]. guarded; [|now rewrite Un].
    rewrite (pick_some _ _ _ _ (a_user _ _ _ _ Ha u H0)). cbn [bind]. unfold con_scale_user.
    eapply con_scale_op; try eassumption; try reflexivity; [apply incl_tl, incl_refl|apply ext_refl|]. eapply safe_user; eassumption.
  - guarded; [|now apply Opn]. now apply step_default.
  - guarded; [|now apply Opn]. apply (step_triu A B S w v k (fun p => fst (prob_hessianstructure p))); try assumption. apply hstructure_triu.
  - guarded; [|now apply Opn]. apply (step_triu A B S w v k (fun p => fst (prob_hessian p x lam f))); try assumption. apply hessian_triu.
Qed.

Lemma run_all : forall cs A B S w v, sep A B S w -> agree A B w v -> careful A B S cs ->
  match foldM hcall cs w with
  | Ok w' => exists v' A' B' S', foldM vcall cs v = Ok v' /\ sep A' B' S' w' /\ agree A' B' w' v'
  | Raise e => foldM vcall cs v = Raise e
  end.
Proof.
  intros cs; induction cs as [|c r IH]; intros A B S w v Hs Ha Hc; cbn [foldM]; [eauto 7|].
  destruct (step_all A B S w v c r Hs Ha Hc) as [Ho Hc']. destruct (hcall w c) as [w'|e]; cbn [outcome] in Ho; [|now rewrite Ho].
  destruct Ho as (v' & -> & Hs' & Ha'). now apply (IH _ _ _ _ _ Hs' Ha').
Qed.

Lemma start_sep : sep [] [] [] start.
Proof. constructor; cbn; intros; lia || contradiction. Qed.
Lemma start_agree : agree [] [] start {| v_arr := []; v_con := []; v_obj := []; v_prob := [] |}.
Proof. constructor; cbn; intros; lia || reflexivity. Qed.

Lemma problems_agree : forall A B w v, agree A B w v -> problems w = v_prob v.
Proof.
  intros A B w v Ha. unfold problems. apply (nth_ext _ _ (make_prob 0) (make_prob 0)); [rewrite map_length, seq_length; symmetry; apply Ha|].
  intros k Hk. rewrite map_length, seq_length in Hk. rewrite (nth_indep _ _ ((fun k => view_prob w (w_prob w k)) 0)) by (now rewrite map_length, seq_length).
  rewrite (map_nth (fun k => view_prob w (w_prob w k))), seq_nth by assumption. symmetry. apply nth_error_nth. now apply (a_prob _ _ _ _ Ha).
Qed.

Theorem alias_free : forall cs, careful [] [] [] cs -> fmap problems (hrun cs) = fmap v_prob (vrun cs).
Proof.
  intros cs Hc. unfold hrun, vrun. pose proof (run_all cs _ _ _ _ _ start_sep start_agree Hc) as H. destruct (foldM hcall cs start) as [w'|e].
  - destruct H as (v' & A' & B' & S' & -> & _ & Ha). cbn [fmap]. f_equal. eapply problems_agree; eassumption.
  - now rewrite H.
Qed.
