(** C69: every call keeps the relation. *)
From Verif Require Import Base RBase NlpModel AliasModel AliasSpec AliasProofs AliasProofs2.
From Coq Require Import Lia.
Open Scope nat_scope.

(** ** New objects *)
Record ext (w w' : world) : Prop := {
  e_na : w_na w <= w_na w'; e_arr : forall a, a < w_na w -> w_arr w' a = w_arr w a;
  e_nu : w_nu w <= w_nu w' <= 1 + w_nu w; e_user : forall u, u < w_nu w -> w_user w' u = w_user w u;
  e_user' : forall u, w_nu w <= u < w_nu w' -> w_na w <= w_user w' u < w_na w';
  e_nc : w_nc w <= w_nc w'; e_con : forall i, i < w_nc w -> w_con w' i = w_con w i;
  e_con' : forall i, w_nc w <= i < w_nc w' -> w_nu w' = w_nu w /\ w_np w' = w_np w /\ w_na w <= hc_in (w_con w' i) < w_na w' /\ w_na w <= hc_con (w_con w' i) < w_na w';
  e_no : w_no w <= w_no w'; e_obj : forall i, i < w_no w -> w_obj w' i = w_obj w i;
  e_obj' : forall i, w_no w <= i < w_no w' -> w_nu w' = w_nu w /\ w_np w' = w_np w /\ w_na w <= ho_in (w_obj w' i) < w_na w';
  e_np : w_np w <= w_np w' <= 1 + w_np w; e_prob : forall k, k < w_np w -> w_prob w' k = w_prob w k;
  e_prob' : forall k, w_np w <= k < w_np w' -> w_nu w' = w_nu w /\ hp_cons (w_prob w' k) = [] /\ hp_objs (w_prob w' k) = [] /\ w_na w <= scl w' k < w_na w' }.

Section Ext.
Variables (A B S : list nat) (w w' : world).
Hypothesis Hs : sep A B S w.
Hypothesis He : ext w w'.

Lemma scl_ext : forall k, k < w_np w -> scl w' k = scl w k.
Proof. intros k Hk. unfold scl. now rewrite (e_prob _ _ He). Qed.
Lemma scl_cases : forall k, k < w_np w' -> (k < w_np w /\ scl w' k = scl w k) \/ (w_np w <= k /\ w_na w <= scl w' k < w_na w').
Proof. intros k Hk. destruct (Nat.lt_ge_cases k (w_np w)) as [H|H]; [left|right]; (split; [assumption|]); [now apply scl_ext|]. apply (e_prob' _ _ He). lia. Qed.
Lemma user_cases : forall u, u < w_nu w' -> (u < w_nu w /\ w_user w' u = w_user w u) \/ (w_nu w <= u /\ w_na w <= w_user w' u < w_na w').
Proof. intros u Hu. destruct (Nat.lt_ge_cases u (w_nu w)) as [H|H]; [left|right]; (split; [assumption|]); [now apply (e_user _ _ He)|]. apply (e_user' _ _ He). lia. Qed.
Lemma safe_ext : forall o a, safe w S o a -> safe w' S o a.
Proof.
  intros o a (H1 & H2 & H3). pose proof (e_na _ _ He). split; [lia|]. split.
  - intros k Hk Ho. destruct (scl_cases k Hk) as [[? ->]|[? ?]]; [now apply H2|lia].
  - intros u Hu Hi. destruct (user_cases u Hu) as [[? ->]|[? ?]]; [now apply H3|lia].
Qed.
(** a new array of a piece *)
Lemma safe_new : forall o a, w_nu w' = w_nu w -> w_np w' = w_np w -> w_na w <= a < w_na w' -> safe w' S o a.
Proof.
  intros o a Eu Ep Ha. split; [lia|]. split.
  - rewrite Ep. intros k Hk _. rewrite scl_ext by assumption. pose proof (s_scl _ _ _ _ Hs k Hk). lia.
  - rewrite Eu. intros u Hu _. rewrite (e_user _ _ He) by assumption. pose proof (s_user _ _ _ _ Hs u Hu). lia.
Qed.

Lemma prob_cases : forall k, k < w_np w' -> (k < w_np w /\ w_prob w' k = w_prob w k) \/ (w_np w <= k /\ hp_cons (w_prob w' k) = [] /\ hp_objs (w_prob w' k) = []).
Proof.
  intros k Hk. destruct (Nat.lt_ge_cases k (w_np w)) as [H|H]; [left; split; [assumption|now apply (e_prob _ _ He)]|right].
  destruct (e_prob' _ _ He k) as (_ & ? & ? & _); [lia|]. tauto.
Qed.

Lemma sep_ext : sep A B S w'.
Proof.
  pose proof (e_na _ _ He) as Hna. pose proof (e_nu _ _ He) as Hnu. pose proof (e_np _ _ He) as Hnp.
  assert (Hc : forall k i, k < w_np w' -> In i (refs (hp_cons (w_prob w' k))) -> k < w_np w /\ In i (refs (hp_cons (w_prob w k)))).
  { intros k i Hk Hi. destruct (prob_cases k Hk) as [[? E]|(_ & E & _)]; rewrite E in Hi; [now split|destruct Hi]. }
  assert (Ho : forall k i, k < w_np w' -> In i (refs (hp_objs (w_prob w' k))) -> k < w_np w /\ In i (refs (hp_objs (w_prob w k)))).
  { intros k i Hk Hi. destruct (prob_cases k Hk) as [[? E]|(_ & _ & E)]; rewrite E in Hi; [now split|destruct Hi]. }
  constructor.
  - intros u Hu. destruct (user_cases u Hu) as [[? ->]|[? ?]]; [|lia]. pose proof (s_user _ _ _ _ Hs u). lia.
  - intros u u' Hu Hu' E. destruct (user_cases u Hu) as [[H1 E1]|[H1 H2]]; destruct (user_cases u' Hu') as [[H1' E1']|[H1' H2']].
    + apply (s_uinj _ _ _ _ Hs); congruence.
    + pose proof (s_user _ _ _ _ Hs u). lia.
    + pose proof (s_user _ _ _ _ Hs u'). lia.
    + lia.
  - intros k Hk. destruct (scl_cases k Hk) as [[? ->]|[? ?]]; [|lia]. pose proof (s_scl _ _ _ _ Hs k). lia.
  - intros k u Hk Hu. destruct (scl_cases k Hk) as [[H1 E1]|[H1 H2]]; destruct (user_cases u Hu) as [[H1' E1']|[H1' H2']].
    + rewrite E1, E1'. now apply (s_sclu _ _ _ _ Hs).
    + pose proof (s_scl _ _ _ _ Hs k). lia.
    + pose proof (s_user _ _ _ _ Hs u). lia.
    + destruct (e_prob' _ _ He k) as (? & _); lia.
  - intros k q Hk Hq E. destruct (scl_cases k Hk) as [[H1 E1]|[H1 H2]]; destruct (scl_cases q Hq) as [[H1' E1']|[H1' H2']].
    + apply (s_sinj _ _ _ _ Hs); congruence.
    + pose proof (s_scl _ _ _ _ Hs k). lia.
    + pose proof (s_scl _ _ _ _ Hs q). lia.
    + lia.
  - intros i Hi. pose proof (s_A _ _ _ _ Hs i Hi). pose proof (e_nc _ _ He). lia.
  - intros i Hi. pose proof (s_B _ _ _ _ Hs i Hi). pose proof (e_no _ _ He). lia.
  - intros i Hi Hn. destruct (Nat.lt_ge_cases i (w_nc w)) as [H|H].
    + rewrite (e_con _ _ He) by assumption. destruct (s_con _ _ _ _ Hs i H Hn). split; now apply safe_ext.
    + destruct (e_con' _ _ He i) as (? & ? & ? & ?); [lia|]. split; now apply safe_new.
  - intros i Hi Hn. destruct (Nat.lt_ge_cases i (w_no w)) as [H|H].
    + rewrite (e_obj _ _ He) by assumption. apply safe_ext. now apply (s_obj _ _ _ _ Hs).
    + destruct (e_obj' _ _ He i) as (? & ? & ?); [lia|]. now apply safe_new.
  - intros k i Hk Hi. destruct (Hc k i Hk Hi) as [Hk0 Hi0]. destruct (s_pc _ _ _ _ Hs k i Hk0 Hi0) as (HA & S1 & S2).
    rewrite (e_con _ _ He) by now apply (s_A _ _ _ _ Hs). split; [assumption|]. split; now apply safe_ext.
  - intros k i Hk Hi. destruct (Ho k i Hk Hi) as [Hk0 Hi0]. destruct (s_po _ _ _ _ Hs k i Hk0 Hi0) as (HA & S1).
    rewrite (e_obj _ _ He) by now apply (s_B _ _ _ _ Hs). split; [assumption|]. now apply safe_ext.
  - intros k Hk. destruct (prob_cases k Hk) as [[? E]|(_ & E & _)]; rewrite E; [now apply (s_ndc _ _ _ _ Hs)|constructor].
  - intros k Hk. destruct (prob_cases k Hk) as [[? E]|(_ & _ & E)]; rewrite E; [now apply (s_ndo _ _ _ _ Hs)|constructor].
  - intros k q i Hk Hq Ik Iq. apply Hc in Ik; [|assumption]. apply Hc in Iq; [|assumption]. now apply (s_dc _ _ _ _ Hs k q i).
  - intros k q i Hk Hq Ik Iq. apply Ho in Ik; [|assumption]. apply Ho in Iq; [|assumption]. now apply (s_do _ _ _ _ Hs k q i).
Qed.

(** what was there looks the same *)
Lemma view_con_old : forall i o1 o2, i < w_nc w -> safe w S o1 (hc_in (w_con w i)) -> safe w S o2 (hc_con (w_con w i)) -> view_con w' (w_con w' i) = view_con w (w_con w i).
Proof. intros i o1 o2 Hi [H1 _] [H2 _]. rewrite (e_con _ _ He) by assumption. apply view_con_ext; now apply (e_arr _ _ He). Qed.
Lemma view_obj_old : forall i o1, i < w_no w -> safe w S o1 (ho_in (w_obj w i)) -> view_obj w' (w_obj w' i) = view_obj w (w_obj w i).
Proof. intros i o1 Hi [H1 _]. rewrite (e_obj _ _ He) by assumption. apply view_obj_ext; now apply (e_arr _ _ He). Qed.
Lemma view_prob_old : forall k, k < w_np w -> view_prob w' (w_prob w' k) = view_prob w (w_prob w k).
Proof.
  intros k Hk. rewrite (e_prob _ _ He) by assumption. apply view_prob_ext.
  - apply (e_arr _ _ He). now apply (s_scl _ _ _ _ Hs).
  - intros i Hi. destruct (s_pc _ _ _ _ Hs k i Hk Hi) as (HA & S1 & S2). eapply view_con_old; try eassumption. now apply (s_A _ _ _ _ Hs).
  - intros i Hi. destruct (s_po _ _ _ _ Hs k i Hk Hi) as (HA & S1). eapply view_obj_old; try eassumption. now apply (s_B _ _ _ _ Hs).
Qed.

Lemma agree_ext : forall v v', agree A B w v ->
  length (v_arr v') = w_nu w' -> length (v_con v') = w_nc w' -> length (v_obj v') = w_no w' -> length (v_prob v') = w_np w' ->
  (forall u, u < w_nu w -> nth_error (v_arr v') u = nth_error (v_arr v) u) -> (forall u, w_nu w <= u < w_nu w' -> nth_error (v_arr v') u = Some (w_arr w' (w_user w' u))) ->
  (forall u, u < w_nc w -> nth_error (v_con v') u = nth_error (v_con v) u) -> (forall u, w_nc w <= u < w_nc w' -> nth_error (v_con v') u = Some (view_con w' (w_con w' u))) ->
  (forall u, u < w_no w -> nth_error (v_obj v') u = nth_error (v_obj v) u) -> (forall u, w_no w <= u < w_no w' -> nth_error (v_obj v') u = Some (view_obj w' (w_obj w' u))) ->
  (forall u, u < w_np w -> nth_error (v_prob v') u = nth_error (v_prob v) u) -> (forall u, w_np w <= u < w_np w' -> nth_error (v_prob v') u = Some (view_prob w' (w_prob w' u))) ->
  agree A B w' v'.
Proof.
  intros v v' Ha L1 L2 L3 L4 U U' C C' O O' P P'. constructor; try assumption.
  - intros u Hu. destruct (Nat.lt_ge_cases u (w_nu w)) as [H|H]; [|now apply U']. rewrite U, (a_user _ _ _ _ Ha), (e_user _ _ He) by assumption. f_equal. symmetry.
    apply (e_arr _ _ He). now apply (s_user _ _ _ _ Hs).
  - intros i Hi Hn. destruct (Nat.lt_ge_cases i (w_nc w)) as [H|H]; [|now apply C']. rewrite C, (a_con _ _ _ _ Ha) by assumption. f_equal. symmetry.
    destruct (s_con _ _ _ _ Hs i H Hn). eapply view_con_old; eassumption.
  - intros i Hi Hn. destruct (Nat.lt_ge_cases i (w_no w)) as [H|H]; [|now apply O']. rewrite O, (a_obj _ _ _ _ Ha) by assumption. f_equal. symmetry.
    pose proof (s_obj _ _ _ _ Hs i H Hn). eapply view_obj_old; eassumption.
  - intros k Hk. destruct (Nat.lt_ge_cases k (w_np w)) as [H|H]; [|now apply P']. rewrite P, (a_prob _ _ _ _ Ha) by assumption. f_equal. symmetry. now apply view_prob_old.
Qed.
End Ext.

Lemma nth_app_old : forall A (l : list A) x n u, length l = n -> u < n -> nth_error (l ++ [x]) u = nth_error l u.
Proof. intros. apply nth_error_app1. lia. Qed.
Lemma nth_app_new : forall A (l : list A) x n u, length l = n -> n <= u < S n -> nth_error (l ++ [x]) u = Some x.
Proof. intros A l x n u H1 H2. assert (u = n) by lia. subst. rewrite nth_error_app2, Nat.sub_diag by lia. reflexivity. Qed.
Lemma len_snoc : forall A (l : list A) x n, length l = n -> length (l ++ [x]) = S n.
Proof. intros. rewrite app_length. cbn. lia. Qed.

Definition next (A B S : list nat) (c : call) : list nat * list nat * list nat :=
  match c with
  | AddCon _ _ i => (i :: A, B, S) | AddObj _ _ i => (A, i :: B, S)
  | ConScalesOf _ u | InScalesOf _ u | ConScaleUser _ _ u => (A, B, u :: S)
  | _ => (A, B, S)
  end.
Definition Rel (acc : list nat * list nat * list nat) (w : world) (v : values) : Prop :=
  sep (fst (fst acc)) (snd (fst acc)) (snd acc) w /\ agree (fst (fst acc)) (snd (fst acc)) w v.

Ltac worlds := cbn [new_user new_con new_obj new_prob new_arr put_con put_obj put_prob put_arr w_arr w_na w_con w_nc w_obj w_no w_prob w_np w_user w_nu
                    v_arr v_con v_obj v_prob] in *.
Ltac puts := repeat (rewrite put_same || rewrite put_other by lia).

Lemma ext_user : forall w l, ext w (new_user w l).
Proof. intros w l. constructor; worlds; intros; puts; try lia; try reflexivity. replace u with (w_nu w) by lia. puts. lia. Qed.
Lemma ext_con : forall w v, ext w (new_con w v).
Proof.
  intros w v. constructor; worlds; intros; puts; try lia; try reflexivity. replace i with (w_nc w) by lia. puts. cbn [hc_in hc_con]. lia.
Qed.
Lemma ext_obj : forall w v, ext w (new_obj w v).
Proof.
  intros w v. constructor; worlds; intros; puts; try lia; try reflexivity. replace i with (w_no w) by lia. puts. cbn [ho_in]. lia.
Qed.
Lemma ext_prob : forall w n, ext w (new_prob w n).
Proof.
  intros w v. constructor; worlds; intros; puts; try lia; try reflexivity. replace k with (w_np w) by lia. unfold scl. worlds. puts. cbn [hp_cons hp_objs hp_scales]. repeat split; lia.
Qed.
Lemma ext_arr : forall w l, ext w (new_arr w l).
Proof. intros w l. constructor; worlds; intros; puts; try lia; try reflexivity. Qed.

Lemma step_new_user : forall A B S w v l, sep A B S w -> agree A B w v ->
  sep A B S (new_user w l) /\ agree A B (new_user w l) {| v_arr := v_arr v ++ [l]; v_con := v_con v; v_obj := v_obj v; v_prob := v_prob v |}.
Proof.
  intros A B S w v l Hs Ha. split; [eapply sep_ext; [eassumption|apply ext_user]|].
  eapply agree_ext; try eassumption; [apply ext_user|..]; worlds; intros; try apply Ha; try reflexivity; try lia.
  - apply len_snoc, Ha.
  - eapply nth_app_old; [apply Ha|assumption].
  - replace u with (w_nu w) by lia. puts. eapply nth_app_new; [apply Ha|lia].
Qed.
Lemma step_new_con : forall A B S w v x, sep A B S w -> agree A B w v ->
  sep A B S (new_con w x) /\ agree A B (new_con w x) {| v_arr := v_arr v; v_con := v_con v ++ [x]; v_obj := v_obj v; v_prob := v_prob v |}.
Proof.
  intros A B S w v x Hs Ha. split; [eapply sep_ext; [eassumption|apply ext_con]|].
  eapply agree_ext; try eassumption; [apply ext_con|..]; worlds; intros; try apply Ha; try reflexivity; try lia.
  - apply len_snoc, Ha.
  - eapply nth_app_old; [apply Ha|assumption].
  - replace u with (w_nc w) by lia. puts. unfold view_con. worlds. cbn [hc_v hc_in hc_con]. puts. erewrite nth_app_new; [|apply Ha|lia]. f_equal. symmetry. now apply with_back.
Qed.
Lemma step_new_obj : forall A B S w v x, sep A B S w -> agree A B w v ->
  sep A B S (new_obj w x) /\ agree A B (new_obj w x) {| v_arr := v_arr v; v_con := v_con v; v_obj := v_obj v ++ [x]; v_prob := v_prob v |}.
Proof.
  intros A B S w v x Hs Ha. split; [eapply sep_ext; [eassumption|apply ext_obj]|].
  eapply agree_ext; try eassumption; [apply ext_obj|..]; worlds; intros; try apply Ha; try reflexivity; try lia.
  - apply len_snoc, Ha.
  - eapply nth_app_old; [apply Ha|assumption].
  - replace u with (w_no w) by lia. puts. unfold view_obj. worlds. cbn [ho_v ho_in]. puts. erewrite nth_app_new; [|apply Ha|lia]. f_equal. symmetry. now apply with_oback.
Qed.
Lemma step_new_prob : forall A B S w v n, sep A B S w -> agree A B w v ->
  sep A B S (new_prob w n) /\ agree A B (new_prob w n) {| v_arr := v_arr v; v_con := v_con v; v_obj := v_obj v; v_prob := v_prob v ++ [make_prob n] |}.
Proof.
  intros A B S w v n Hs Ha. split; [eapply sep_ext; [eassumption|apply ext_prob]|].
  eapply agree_ext; try eassumption; [apply ext_prob|..]; worlds; intros; try apply Ha; try reflexivity; try lia.
  - apply len_snoc, Ha.
  - eapply nth_app_old; [apply Ha|assumption].
  - replace u with (w_np w) by lia. puts. unfold view_prob. worlds. cbn [hp_n hp_cons hp_objs hp_triu hp_scales map]. puts. erewrite nth_app_new; [reflexivity|apply Ha|lia].
Qed.

(** writing to an array that was not handed over *)
Lemma step_write : forall A B S w v u l, sep A B S w -> agree A B w v -> u < w_nu w -> ~ In u S ->
  sep A B S (put_arr w (w_user w u) l) /\ agree A B (put_arr w (w_user w u) l) {| v_arr := replace (v_arr v) u l; v_con := v_con v; v_obj := v_obj v; v_prob := v_prob v |}.
Proof.
  intros A B S w v u l Hs Ha Hu Hn.
  assert (Hk : forall o a, safe w S o a -> w_arr (put_arr w (w_user w u) l) a = w_arr w a).
  { intros o a (_ & _ & H3). worlds. apply put_other. now apply H3. }
  split; [destruct Hs; constructor; assumption|]. constructor; worlds; try apply Ha.
  - rewrite replace_length. apply Ha.
  - intros u' Hu'. destruct (Nat.eq_dec u' u) as [->|Hne].
    + rewrite put_same. apply replace_same. now rewrite (a_nu _ _ _ _ Ha).
    + rewrite replace_other by assumption. rewrite (a_user _ _ _ _ Ha) by assumption. f_equal. symmetry. apply put_other. intros E. apply Hne. now apply (s_uinj _ _ _ _ Hs).
  - intros i Hi Hni. rewrite (a_con _ _ _ _ Ha) by assumption. f_equal. symmetry. destruct (s_con _ _ _ _ Hs i Hi Hni). apply view_con_ext; eapply Hk; eassumption.
  - intros i Hi Hni. rewrite (a_obj _ _ _ _ Ha) by assumption. f_equal. symmetry. pose proof (s_obj _ _ _ _ Hs i Hi Hni). apply view_obj_ext; eapply Hk; eassumption.
  - intros k Hk0. rewrite (a_prob _ _ _ _ Ha) by assumption. f_equal. symmetry. apply view_prob_ext.
    + worlds. apply put_other. intros E. symmetry in E. revert E. now apply (s_sclu _ _ _ _ Hs).
    + intros i Hi. worlds. destruct (s_pc _ _ _ _ Hs k i Hk0 Hi) as (_ & ? & ?). apply view_con_ext; eapply Hk; eassumption.
    + intros i Hi. worlds. destruct (s_po _ _ _ _ Hs k i Hk0 Hi) as (_ & ?). apply view_obj_ext; eapply Hk; eassumption.
Qed.

(** handing over an array *)
Lemma safe_more : forall w S S' o a, incl S S' -> safe w S o a -> safe w S' o a.
Proof. intros w S S' o a H (H1 & H2 & H3). split; [assumption|]. split; [assumption|]. intros u Hu Hn. apply H3; auto. Qed.
Lemma sep_more : forall A B S S' w, incl S S' -> sep A B S w -> sep A B S' w.
Proof.
  intros A B S S' w H Hs. constructor; try apply Hs.
  - intros i Hi Hn. destruct (s_con _ _ _ _ Hs i Hi Hn). split; eapply safe_more; eassumption.
  - intros i Hi Hn. eapply safe_more; [eassumption|]. now apply (s_obj _ _ _ _ Hs).
  - intros k i Hk Hi. destruct (s_pc _ _ _ _ Hs k i Hk Hi) as (? & ? & ?). split; [assumption|]. split; eapply safe_more; eassumption.
  - intros k i Hk Hi. destruct (s_po _ _ _ _ Hs k i Hk Hi) as (? & ?). split; [assumption|]. eapply safe_more; eassumption.
Qed.
(** an array of the user that was handed over is safe in a constraint *)
Lemma safe_user : forall A B S w u o, sep A B S w -> u < w_nu w -> safe w (u :: S) o (w_user w u).
Proof.
  intros A B S w u o Hs Hu. split; [now apply (s_user _ _ _ _ Hs)|]. split; [intros k Hk _; now apply (s_sclu _ _ _ _ Hs)|].
  intros u' Hu' Hn E. apply Hn. left. now apply (s_uinj _ _ _ _ Hs).
Qed.
(** a setter of a constraint that is in no problem *)
Lemma step_free_con : forall A B S w v i c, sep A B S w -> agree A B w v -> i < w_nc w -> ~ In i A -> safe w S None (hc_in c) -> safe w S None (hc_con c) ->
  sep A B S (put_con w i c) /\ agree A B (put_con w i c) {| v_arr := v_arr v; v_con := replace (v_con v) i (view_con w c); v_obj := v_obj v; v_prob := v_prob v |}.
Proof.
  intros A B S w v i c Hs Ha Hi Hn S1 S2.
  assert (Hin : forall k j, k < w_np w -> In j (refs (hp_cons (w_prob w k))) -> put (w_con w) i c j = w_con w j).
  { intros k j Hk Hj. apply put_other. intros ->. apply Hn. now apply (s_pc _ _ _ _ Hs k). }
  split.
  - constructor; worlds; try apply Hs.
    + intros j Hj Hnj. destruct (Nat.eq_dec j i) as [->|Hne]; [rewrite put_same; now split|]. rewrite put_other by assumption. now apply (s_con _ _ _ _ Hs).
    + intros k j Hk Hj. rewrite (Hin k) by assumption. now apply (s_pc _ _ _ _ Hs).
  - constructor; worlds; try apply Ha.
    + rewrite replace_length. apply Ha.
    + intros j Hj Hnj. destruct (Nat.eq_dec j i) as [->|Hne].
      * rewrite put_same. rewrite replace_same; [reflexivity|]. now rewrite (a_nc _ _ _ _ Ha).
      * rewrite put_other, replace_other by assumption. now apply (a_con _ _ _ _ Ha).
    + intros k Hk. rewrite (a_prob _ _ _ _ Ha) by assumption. f_equal. symmetry. apply view_prob_ext; [reflexivity| |reflexivity].
      intros j Hj. worlds. now rewrite (Hin k) by assumption.
Qed.
